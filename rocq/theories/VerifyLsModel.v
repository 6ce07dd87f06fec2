(* VerifyLsModel.v -- copy() and verify() of the least-squares solvers: lstsq/_base.py:294-353 (SolverTemplate), 473-481
   (PlainSolver), _tikhonov.py:460-471 and 1080-1093, _tsvd.py:220-230, _total.py:192-199.  A solver, of the library or of
   a user, is a record of its attributes and methods.  Printing is not modelled; solve() returns arrays.  No proofs here. *)
From Coq Require Import String ZArith.
From Verif Require Export VerifyOpModel.
#[local] Open Scope string_scope.
#[local] Open Scope nat_scope.
#[local] Open Scope list_scope.

(* ---- copy() of the library's solvers ----------------------------------------------------------------------------------- *)
(* a setter called in a constructor: the object, or the exception *)
Definition made {A} (x : A * res unit) : res A := do _ <- snd x; Ok (fst x).
(* if self.data_matrix is not None: SolverTemplate.fit(solver, self.data_matrix, self.lhs_matrix) *)
Definition data_copy (d : option (mat * mat)) : res (option (mat * mat)) :=
  match d with None => Ok None | Some (D, Z) => do dz <- base_fit (M D) (M Z); Ok (Some dz) end.
(* an attribute that was never set *)
Definition attr {A} (x : option A) : res A := match x with Some a => Ok a | None => Err AttributeError end.
(* ... followed by the assignment of the other attributes, if there is data *)
Definition with_attrs {A} (d : option (mat * mat)) (x : option A) : res (option A) :=
  match d with None => Ok None | Some _ => do a <- attr x; Ok (Some a) end.
(* PlainSolver.copy: _base.py:473-481 *)
Definition plain_copy (s : plain) : res plain :=
  do d <- data_copy (pl_data s); Ok {| pl_opts := pl_opts s; pl_data := d |}.
(* _svals, _ZPhi and _PsiT (_SinvPsiT) are set together with the data *)
Definition svd_copy (p : option svdpre) : res (option svdpre) :=
  match p with
  | None => Ok None
  | Some q => do dz <- base_fit (M (sp_D q)) (M (sp_Z q));
              Ok (Some {| sp_D := fst dz; sp_Z := snd dz; sp_svals := sp_svals q; sp_ZPhi := sp_ZPhi q; sp_PsiT := sp_PsiT q |})
  end.
(* L2Solver.copy: _tikhonov.py:460-471 *)
Definition l2_copy (s : l2) : res l2 :=
  do n <- made (l2_set {| l2_reg := None; l2_pre := None |} (match l2_reg s with None => RNone | Some x => RScalar x end));
  do p <- svd_copy (l2_pre s); Ok {| l2_reg := l2_reg n; l2_pre := p |}.
(* L2DecoupledSolver.copy, inherited *)
Definition ld_copy (s : l2d) : res l2d :=
  do n <- made (ld_set {| ld_reg := None; ld_pre := None |} (match ld_reg s with None => RNone | Some v => RVec v end));
  do p <- svd_copy (ld_pre s); Ok {| ld_reg := ld_reg n; ld_pre := p |}.
(* TikhonovSolver.copy: _tikhonov.py:1080-1093 *)
Definition tk_copy (s : tk) : res tk :=
  do n <- made (tk_set {| tk_reg := None; tk_method := tk_method s; tk_opts := tk_opts s; tk_data := None; tk_pre := None |} (option_map M (tk_reg s)));
  do d <- data_copy (tk_data s); do p <- with_attrs (tk_data s) (tk_pre s);
  Ok {| tk_reg := tk_reg n; tk_method := tk_method n; tk_opts := tk_opts n; tk_data := d; tk_pre := p |}.
(* TikhonovDecoupledSolver.copy, inherited (its options are not used by solve() and not in the model) *)
Definition td_copy (s : tkd) : res tkd :=
  do n <- made (td_set {| td_reg := None; td_method := td_method s; td_data := None; td_pre := None |} (option_map (map M) (td_reg s)));
  do d <- data_copy (td_data s); do p <- with_attrs (td_data s) (td_pre s);
  Ok {| td_reg := td_reg n; td_method := td_method n; td_data := d; td_pre := p |}.
(* TruncatedSVDSolver.copy: _tsvd.py:220-230 *)
Definition ts_copy (s : tsvd) : res tsvd :=
  do n <- made (ts_set {| ts_modes := None; ts_pre := None |} (ts_modes s));
  do p <- svd_copy (ts_pre s); Ok {| ts_modes := ts_modes n; ts_pre := p |}.
(* TotalLeastSquaresSolver.copy: _total.py:192-199 *)
Definition tls_copy (s : tls) : res tls :=
  do d <- data_copy (tl_data s); do x <- with_attrs (tl_data s) (tl_sol s); Ok {| tl_data := d; tl_sol := x |}.
Definition lsq_copy (s : lsq) : res lsq :=
  match s with
  | LPlain p => do c <- plain_copy p; Ok (LPlain c)
  | LL2 p => do c <- l2_copy p; Ok (LL2 c)
  | LL2D p => do c <- ld_copy p; Ok (LL2D c)
  | LTik p => do c <- tk_copy p; Ok (LTik c)
  | LTikD p => do c <- td_copy p; Ok (LTikD c)
  | LTsvd p => do c <- ts_copy p; Ok (LTsvd c)
  | LTls p => do c <- tls_copy p; Ok (LTls c)
  end.

(* ---- SolverTemplate.verify: _base.py:299-353 ------------------------------------------------------------------------------ *)
(* what verify() looks at of a solver: its class, the dimensions k, d and r (None before fit()) and solve() *)
Record solx := { so_class : str; so_dims : option (nat * nat * nat); so_solve : res arr }.
(* the solver; vs_copy also gives save() and load() of the copy, None if not implemented *)
Record vsol := { vs_self : solx; vs_copy : res (solx * option (fs -> str -> fs * wstat) * option (fs -> str -> res solx)) }.
Definition dims_eqb (a b : option (nat * nat * nat)) : bool :=
  match a, b with
  | None, None => true
  | Some (k, d, r), Some (k', d', r') => (k =? k') && (d =? d') && (r =? r')
  | _, _ => false
  end.
(* _check_equality: 326-334 *)
Definition same_solver (a b : solx) (Ohat : arr) : res unit :=
  do _ <- rassert (dims_eqb (so_dims a) (so_dims b));
  do x <- so_solve b; do c <- bclose x Ohat; rassert c.
Definition stempfile : str := "_solververification.h5".
(* 344-350: save() and load() of the copy *)
Definition v_solver_save (c : solx) (sv : option (fs -> str -> fs * wstat)) (ld : option (fs -> str -> res solx)) (Ohat : arr) (f : fs) : fs * wstat :=
  let '(f1, st) := match sv with None => (f, Raised NotImplementedError) | Some sv => sv f stempfile end in
  match st, ld with
  | Killed, _ => (f1, Killed)
  | Raised NotImplementedError, _ | Done, None => (f1, Done)
  | Raised e, _ => (f1, Raised e)
  | Done, Some ld =>
      (f1, match (do x <- ld f1 stempfile; same_solver c x Ohat) with Err NotImplementedError => Done | y => stat_of y end)
  end.
(* 336-342 *)
Definition v_solver_copy (o : vsol) (d r : nat) : res (solx * option (fs -> str -> fs * wstat) * option (fs -> str -> res solx) * arr) :=
  do Ohat <- so_solve (vs_self o);
  do _ <- rassert (mshape r d Ohat);
  do c <- vs_copy o;
  let '(x, sv, ld) := c in
  do _ <- rassert (String.eqb (so_class x) (so_class (vs_self o)));
  do _ <- same_solver (vs_self o) x Ohat;
  Ok (x, sv, ld, Ohat).
(* the finally clause removes the file in any case, unless the process is killed *)
Definition v_solver (o : vsol) (f : fs) : fs * wstat :=
  match so_dims (vs_self o) with
  | None => (f, Done)
  | Some (_, d, r) =>
      let '(f1, st) := match v_solver_copy o d r with
                       | Err e => (f, Raised e)
                       | Ok (x, sv, ld, Ohat) => v_solver_save x sv ld Ohat f
                       end in
      match st with Killed => (f1, Killed) | _ => (remove_file stempfile f1, st) end
  end.

(* ---- the solvers of the library ------------------------------------------------------------------------------------------- *)
Definition lsq_data (s : lsq) : option (mat * mat) :=
  match s with
  | LPlain p => pl_data p
  | LL2 p => odata (l2_pre p)
  | LL2D p => odata (ld_pre p)
  | LTik p => tk_data p
  | LTikD p => td_data p
  | LTsvd p => odata (ts_pre p)
  | LTls p => tl_data p
  end.
Definition sclass_name (k : sclass) : str :=
  match k with
  | KPlain => "PlainSolver" | KL2 => "L2Solver" | KL2D => "L2DecoupledSolver" | KTik => "TikhonovSolver"
  | KTikD => "TikhonovDecoupledSolver" | KTsvd => "TruncatedSVDSolver" | KTls => "TotalLeastSquaresSolver"
  end.
Definition lib_sx (X : lsx) (s : lsq) : solx :=
  {| so_class := sclass_name (s_class s);
     so_dims := option_map (fun dz => (nrows (fst dz), ncols (fst dz), nrows (snd dz))) (lsq_data s);
     so_solve := do Oh <- lsq_solve X s; Ok (M Oh) |}.
Definition lib_solver (X : lsx) (I : spi) (w : world) (s : lsq) : vsol :=
  {| vs_self := lib_sx X s;
     vs_copy := do c <- lsq_copy s;
                Ok (lib_sx X c, Some (fun f p => save I w f p (Some true) (SvSolver c)),
                    Some (fun f p => do x <- load_file f p (lsq_load (s_class c)); Ok (lib_sx X x))) |}.
(* solver.verify() *)
Definition solver_verify (X : lsx) (I : spi) (w : world) (s : lsq) (f : fs) : fs * wstat := v_solver (lib_solver X I w s) f.

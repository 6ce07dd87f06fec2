(* SolverModel.v -- lstsq/: the least-squares solvers.  scipy.linalg.lstsq, svd and solve are parameters of the
   section (their documented behaviour is in SpecLstsq.v and SpecExt.v).  Warnings, __str__, verify() (see VerifyLsModel.v) and
   save/load are not modelled here.  Python keyword options are kept as the record lsopts.  No proofs here. *)
From Verif Require Export ParamModel DdtModel.
From Verif Require PreModel.
#[local] Open Scope nat_scope.

(* options forwarded to scipy.linalg.lstsq: _base.py:343-375 (cond, lapack_driver) *)
Record lsopts := { o_cond : option R; o_driver : option String.string }.

(* np binary operations of one-dimensional arrays with length-one broadcasting *)
Definition vop_b (f : R -> R -> R) (u v : vec) : res vec :=
  if length u =? length v then Ok (map2 f u v)
  else if length u =? 1 then Ok (map (f (nth 0 u 0%R)) v)
  else if length v =? 1 then Ok (map (fun x => f x (nth 0 v 0%R)) u)
  else Err ValueError.

Definition shape_is (r c : nat) (A : mat) : bool := (nrows A =? r) && (ncols A =? c).

(* lstsq_size(modelform, r, m, affines): _base.py:63-81.  A model form is the list of the letters it is made of;
   affines gives the number of coefficient functions of a letter, if it is a key of the dictionary. *)
Inductive letter := Lc | LA | LH | LG | LB.
Definition letter_eqb (a b : letter) : bool :=
  match a, b with Lc, Lc | LA, LA | LH, LH | LG, LG | LB, LB => true | _, _ => false end.
Definition letter_dim (r m : nat) (l : letter) : nat :=
  match l with Lc => 1 | LA => r | LH => r * (r + 1) / 2 | LG => r * (r + 1) * (r + 2) / 6 | LB => m end.
Definition lstsq_size (form : list letter) (r m : nat) (affines : letter -> option nat) : res nat :=
  let hasB := existsb (letter_eqb LB) form in
  if hasB && (m =? 0) then Err ValueError
  else if negb hasB && negb (m =? 0) then Err ValueError
  else Ok (lsumn (map (fun l => letter_dim r m l * match affines l with Some n => n | None => 1 end) form)).

(* SolverTemplate.fit(data_matrix, lhs_matrix): _base.py:166-181 *)
Definition base_fit (D Z : arr) : res (mat * mat) :=
  match D with
  | V _ => Err ValueError
  | M D' => let Z' := atleast_2d Z in
            if ncols Z' =? nrows D' then Ok (D', Z') else Err DimensionalityError
  end.

(* the shape check of residual(): _base.py:230-236 *)
Definition check_ohat (r d : nat) (O : arr) : res mat :=
  let bad := Err DimensionalityError in
  match O with
  | V o => if (r =? 1) && (length o =? d) then Ok [o] else bad
  | M o => if shape_is r d o then Ok o else bad
  end.
(* SolverTemplate.residual(Ohat): _base.py:230-239 *)
Definition base_residual (data : option (mat * mat)) (O : arr) : res vec :=
  match data with
  | None => Err AttributeError
  | Some (D, Z) =>
      do o <- check_ohat (nrows Z) (ncols D) O;
      Ok (map vnorm2 (mT (msub (matmul D (mT o)) (mT Z))))
  end.

(* PlainSolver: _base.py:377-481 *)
Record plain := { pl_opts : lsopts; pl_data : option (mat * mat) }.
(* L2Solver and L2DecoupledSolver: _tikhonov.py:202-640; regularizer of one or r scalars *)
Record svdpre := { sp_D : mat; sp_Z : mat; sp_svals : vec; sp_ZPhi : mat; sp_PsiT : mat }.
Record l2 := { l2_reg : option R; l2_pre : option svdpre }.
Record l2d := { ld_reg : option vec; ld_pre : option svdpre }.
(* TikhonovSolver and TikhonovDecoupledSolver: _tikhonov.py:642-1350; tk_pre holds _ZtPad, _DtD, _DtZt *)
Inductive method := MLstsq | MNormal.
Record pads := { pd_ZtPad : mat; pd_DtD : mat; pd_DtZt : mat }.
Record tk := { tk_reg : option mat; tk_method : method; tk_opts : lsopts; tk_data : option (mat * mat); tk_pre : option pads }.
Record tkd := { td_reg : option (list mat); td_method : method; td_data : option (mat * mat); td_pre : option pads }.
(* TruncatedSVDSolver: _tsvd.py:40-230 *)
Record tsvd := { ts_modes : option Z; ts_pre : option svdpre }.
(* TotalLeastSquaresSolver: _total.py:30-200 (tl_cond: None is numpy's inf) *)
Record tlsol := { tl_Ohat : mat; tl_err : R; tl_cond : option R }.
Record tls := { tl_data : option (mat * mat); tl_sol : option tlsol }.

(* arguments of the regularizer setters of the L2 solvers *)
Inductive regarg := RNone | RScalar (x : R) | RVec (v : vec) | RMat (m : mat).

Definition sp_data (p : svdpre) : mat * mat := (sp_D p, sp_Z p).
Definition odata (p : option svdpre) : option (mat * mat) := match p with Some q => Some (sp_data q) | None => None end.
Definition negs (v : vec) : bool := existsb (fun x => if Rlt_dec x 0 then true else false) v.

(* np.finfo(float64).eps *)
Definition eps : R := (/ 2 ^ 52)%R.
(* symmetrization used by posterior(): (A + A.T)/2 *)
Definition sym (A : mat) : mat := mscale (/ 2)%R (madd A (mT A)).

(* regularizer = reg: _tikhonov.py:256-264.  The setter returns the object and the outcome. *)
Definition l2_set (s : l2) (g : regarg) : l2 * res unit :=
  match g with
  | RNone => ({| l2_reg := None; l2_pre := l2_pre s |}, Ok tt)
  | RScalar x => if Rlt_dec x 0 then (s, Err ValueError)
                 else ({| l2_reg := Some x; l2_pre := l2_pre s |}, Ok tt)
  | _ => (s, Err TypeError)
  end.

(* one row of (ZPhi * svals_inv.T) @ PsiT: _tikhonov.py:322-326; numpy's 0/0 is an error here *)
Definition l2_weights (s : vec) (lam : R) : res vec :=
  mapM (fun x => if Req_EM_T (x * x + lam * lam)%R 0 then Err OtherError else Ok (x / (x * x + lam * lam))%R) s.
Definition l2_core (p : svdpre) (regs : vec) : res mat :=
  do W <- mapM (l2_weights (sp_svals p)) regs;
  let Zp := sp_ZPhi p in
  if length W =? nrows Zp then Ok (matmul (map2 vmul Zp W) (sp_PsiT p))
  else if length W =? 1 then Ok (matmul (map (fun z => vmul z (nth 0 W [])) Zp) (sp_PsiT p))
  else if nrows Zp =? 1 then Ok (matmul (map (vmul (nth 0 Zp [])) W) (sp_PsiT p))
  else Err ValueError.
Definition l2_solve (s : l2) : res mat :=
  match l2_pre s, l2_reg s with
  | None, _ => Err AttributeError
  | Some _, None => Err AttributeError
  | Some p, Some lam => l2_core p (repeat lam (nrows (sp_Z p)))
  end.

(* np.sum(Ohat**2, axis=-1) of the argument *)
Definition rowsq (O : arr) : vec := match O with V o => [vnorm2 o] | M o => map vnorm2 o end.
(* regresidual(Ohat): _tikhonov.py:422-425 *)
Definition l2_regresidual (s : l2) (O : arr) : res vec :=
  match l2_pre s with
  | None => Err AttributeError
  | Some p =>
      match l2_reg s with
      | None => Err AttributeError
      | Some lam => do rs <- base_residual (Some (sp_data p)) O;
                    Ok (vadd rs (map (Rmult (lam * lam)) (rowsq O)))
      end
  end.

(* _check_sigmas: _tikhonov.py:27-30 *)
Definition check_sigmas (rs : vec) : res vec :=
  if existsb (fun x => if Rlt_dec x eps then true else false) rs then Err RuntimeError else Ok rs.
(* posterior(): _tikhonov.py:365-373, the means (rows) and the precision matrices *)
Definition l2_posterior (s : l2) : res (mat * list mat) :=
  do O <- l2_solve s;
  match l2_pre s, l2_reg s with
  | Some p, Some lam =>
      let D := sp_D p in
      do rr <- l2_regresidual s (M O);
      do sg0 <- check_sigmas rr;
      let sg := map (fun x => (x / INR (nrows D))%R) sg0 in
      let P := madd (sym (matmul (mT D) D)) (mscale (lam * lam) (eye (ncols D))) in
      Ok (O, map (fun sig => mscale (/ sig) P) sg)
  | _, _ => Err AttributeError
  end.

(* cond(): _tikhonov.py:381; _base.py:257 uses numpy.linalg.cond and is not modelled *)
Definition rmax (v : vec) : res R := PreModel.vmax v.
Definition rmin (v : vec) : res R := PreModel.vmin v.
(* regcond(): _tikhonov.py:393-396 *)
Definition l2_regcond (s : l2) : res R :=
  match l2_pre s with
  | None => Err AttributeError
  | Some p =>
      match l2_reg s with
      | None => Err AttributeError
      | Some lam =>
          let s2 := map (fun x => (x * x + lam * lam)%R) (sp_svals p) in
          do a <- rmax s2; do b <- rmin s2;
          if Req_EM_T b 0 then Err OtherError else Ok (sqrt (a / b))
      end
  end.

(* L2DecoupledSolver: shape check 509-513; regularizer setter 522-535 *)
Definition ld_check (p : option svdpre) (v : vec) : res unit :=
  match p with None => Ok tt | Some q => guard (negb (length v =? nrows (sp_Z q))) DimensionalityError end.
Definition ld_set (s : l2d) (g : regarg) : l2d * res unit :=
  match g with
  | RNone => ({| ld_reg := None; ld_pre := ld_pre s |}, Ok tt)
  | RVec v => if negs v then (s, Err ValueError)
              else ({| ld_reg := Some v; ld_pre := ld_pre s |}, ld_check (ld_pre s) v)
  | _ => (s, Err ValueError)
  end.
(* solve(), inherited: _tikhonov.py:322-326 with a broadcast vector of regularizers *)
Definition ld_solve (s : l2d) : res mat :=
  match ld_pre s, ld_reg s with
  | None, _ => Err AttributeError
  | Some _, None => Err AttributeError
  | Some p, Some regs => l2_core p regs
  end.
(* regresidual(Ohat), inherited: _tikhonov.py:422-425 *)
Definition ld_regresidual (s : l2d) (O : arr) : res vec :=
  match ld_pre s with
  | None => Err AttributeError
  | Some p =>
      match ld_reg s with
      | None => Err AttributeError
      | Some regs => do rs <- base_residual (Some (sp_data p)) O;
                     do pen <- vop_b Rmult (map (fun x => (x * x)%R) regs) (rowsq O);
                     vop_b Rplus rs pen
      end
  end.
(* posterior(): _tikhonov.py:596-604 *)
Definition ld_posterior (s : l2d) : res (mat * list mat) :=
  do O <- ld_solve s;
  match ld_pre s, ld_reg s with
  | Some p, Some regs =>
      let D := sp_D p in
      do rr <- ld_regresidual s (M O);
      do sg0 <- check_sigmas rr;
      let sg := map (fun x => (x / INR (nrows D))%R) sg0 in
      let DTD := sym (matmul (mT D) D) in
      let Ps := map2 (fun lam sig => mscale (/ sig) (madd DTD (mscale (lam * lam) (eye (ncols D))))) regs sg in
      Ok (O, Ps)
  | _, _ => Err AttributeError
  end.
(* regcond(): _tikhonov.py:618-621 *)
Definition ld_regcond (s : l2d) : res vec :=
  match ld_pre s with
  | None => Err AttributeError
  | Some p =>
      match ld_reg s with
      | None => Err AttributeError
      | Some regs =>
          mapM (fun lam => let s2 := map (fun x => (x * x + lam * lam)%R) (sp_svals p) in
                           do a <- rmax s2; do b <- rmin s2;
                           if Req_EM_T b 0 then Err OtherError else Ok (sqrt (a / b))) regs
      end
  end.

(* TikhonovSolver: shape check 747-751; regularizer setter 760-779.  A sparse matrix or nested list is first
   turned into an array, so only the number of axes matters (zero-dimensional arrays are not modelled). *)
Definition tk_check (d : option (mat * mat)) (G : mat) : res unit :=
  match d with None => Ok tt | Some (D, _) => guard (negb (shape_is (ncols D) (ncols D) G)) DimensionalityError end.
Definition tk_store (s : tk) (G : option mat) : tk :=
  {| tk_reg := G; tk_method := tk_method s; tk_opts := tk_opts s; tk_data := tk_data s; tk_pre := tk_pre s |}.
Definition tk_set (s : tk) (g : option arr) : tk * res unit :=
  match g with
  | None => (tk_store s None, Ok tt)
  | Some (V v) => if negs v then (s, Err ValueError) else (tk_store s (Some (mdiag v)), tk_check (tk_data s) (mdiag v))
  | Some (M G) => (tk_store s (Some G), tk_check (tk_data s) G)
  end.
(* the padded and normal terms: _tikhonov.py:929-935 *)
Definition mkpads (D Z : mat) : pads :=
  {| pd_ZtPad := mT Z ++ mzeros (ncols D) (nrows Z);
     pd_DtD := matmul (mT D) D;
     pd_DtZt := matmul (mT D) (mT Z) |}.
(* fit: _tikhonov.py:923-935; the data is stored before the shape check *)
Definition tk_fit (s : tk) (D Z : arr) : tk * res unit :=
  match base_fit D Z with
  | Err e => (s, Err e)
  | Ok (D', Z') =>
      let s1 := {| tk_reg := tk_reg s; tk_method := tk_method s; tk_opts := tk_opts s;
                   tk_data := Some (D', Z'); tk_pre := tk_pre s |} in
      match (match tk_reg s with None => Ok tt | Some G => tk_check (Some (D', Z')) G end) with
      | Err e => (s1, Err e)
      | Ok _ => ({| tk_reg := tk_reg s; tk_method := tk_method s; tk_opts := tk_opts s;
                    tk_data := Some (D', Z'); tk_pre := Some (mkpads D' Z') |}, Ok tt)
      end
  end.

(* np.vstack and the sum of two matrices (1 x 1 broadcasting not modelled: a ValueError here) *)
Definition vstack2 (A B : mat) : res mat := if ncols A =? ncols B then Ok (A ++ B) else Err ValueError.
Definition madd_r (A B : mat) : res mat :=
  if shape_is (nrows A) (ncols A) B then Ok (madd A B) else Err ValueError.

(* regresidual(Ohat): _tikhonov.py:1043-1046; with a one-dimensional Ohat the products agree *)
Definition tk_regresidual (s : tk) (O : arr) : res vec :=
  match tk_data s with
  | None => Err AttributeError
  | Some (D, Z) =>
      match tk_reg s with
      | None => Err AttributeError
      | Some G =>
          do rs <- base_residual (Some (D, Z)) O;
          do o <- check_ohat (nrows Z) (ncols D) O;
          do GO <- matmul_r G (mT o);
          Ok (vadd rs (map vnorm2 (mT GO)))
      end
  end.

(* TikhonovDecoupledSolver: check 1154-1162, setter 1172-1194, fit inherited *)
Definition td_check (d : option (mat * mat)) (Gs : list mat) : res unit :=
  match d with
  | None => Ok tt
  | Some (D, Z) => guard (negb (length Gs =? nrows Z) || negb (forallb (shape_is (ncols D) (ncols D)) Gs)) ValueError
  end.
Definition td_store (s : tkd) (Gs : option (list mat)) : tkd :=
  {| td_reg := Gs; td_method := td_method s; td_data := td_data s; td_pre := td_pre s |}.
(* one regularizer of the list: a vector stands for a diagonal matrix *)
Definition td_one (g : arr) : res mat :=
  match g with V v => if negs v then Err ValueError else Ok (mdiag v) | M G => Ok G end.
Definition td_set (s : tkd) (gs : option (list arr)) : tkd * res unit :=
  match gs with
  | None => (td_store s None, Ok tt)
  | Some l => match mapM td_one l with
              | Err e => (s, Err e)
              | Ok Gs => (td_store s (Some Gs), td_check (td_data s) Gs)
              end
  end.
Definition td_fit (s : tkd) (D Z : arr) : tkd * res unit :=
  match base_fit D Z with
  | Err e => (s, Err e)
  | Ok (D', Z') =>
      let s1 := {| td_reg := td_reg s; td_method := td_method s; td_data := Some (D', Z'); td_pre := td_pre s |} in
      match (match td_reg s with None => Ok tt | Some G => td_check (Some (D', Z')) G end) with
      | Err e => (s1, Err e)
      | Ok _ => ({| td_reg := td_reg s; td_method := td_method s; td_data := Some (D', Z');
                    td_pre := Some (mkpads D' Z') |}, Ok tt)
      end
  end.
(* regresidual(Ohat): _tikhonov.py:1315-1319; G @ (a scalar) raises ValueError *)
Definition td_regresidual (s : tkd) (O : arr) : res vec :=
  match td_data s with
  | None => Err AttributeError
  | Some (D, Z) =>
      match td_reg s with
      | None => Err AttributeError
      | Some Gs =>
          do rs <- base_residual (Some (D, Z)) O;
          match O with
          | V _ => Err ValueError
          | M o => do pen <- mapM (fun Go => do w <- matvec_r (fst Go) (snd Go); Ok (vnorm2 w)) (combine Gs o);
                   vop_b Rplus rs pen
          end
      end
  end.

(* TruncatedSVDSolver.num_svdmodes setter: _tsvd.py:75-91; max_modes 108-110 *)
Definition ts_max (s : tsvd) : option nat := match ts_pre s with None => None | Some p => Some (ncols (sp_ZPhi p)) end.
Definition ts_set (s : tsvd) (n : option Z) : tsvd * res unit :=
  match n, ts_max s with
  | None, None => ({| ts_modes := None; ts_pre := ts_pre s |}, Ok tt)
  | None, Some d => ({| ts_modes := Some (Z.of_nat d); ts_pre := ts_pre s |}, Ok tt)
  | Some n, None => ({| ts_modes := Some n; ts_pre := ts_pre s |}, Ok tt)
  | Some n, Some d =>
      let n' := if (n <=? 0)%Z then (Z.of_nat d + n)%Z else n in
      if (Z.of_nat d <? n')%Z then (s, Err ValueError) else ({| ts_modes := Some n'; ts_pre := ts_pre s |}, Ok tt)
  end.

Section Ext.
Variable la_lstsq : lsopts -> mat -> mat -> res mat.       (* scipy.linalg.lstsq(A, B, **options)[0] *)
Variable la_svd : mat -> res (mat * vec * mat).            (* scipy.linalg.svd(A, full_matrices=False) *)
Variable la_solve : mat -> mat -> res mat.                 (* scipy.linalg.solve(A, B) *)

(* PlainSolver.fit and solve: _base.py:377-440 *)
Definition plain_fit (s : plain) (D Z : arr) : res plain :=
  do dz <- base_fit D Z; Ok {| pl_opts := pl_opts s; pl_data := Some dz |}.
Definition plain_solve (s : plain) : res mat :=
  match pl_data s with
  | None => Err AttributeError
  | Some (D, Z) => do X <- la_lstsq (pl_opts s) D (mT Z); Ok (mT X)
  end.

(* the SVD part of fit: _tikhonov.py:304-311, _tsvd.py:126-128.  A failing SVD leaves the object as it was here. *)
Definition svd_fit (D Z : arr) : res svdpre :=
  do dz <- base_fit D Z;
  do t <- la_svd (fst dz);
  let '(Phi, sv, PsiT) := t in
  do ZPhi <- matmul_r (snd dz) Phi;
  Ok {| sp_D := fst dz; sp_Z := snd dz; sp_svals := sv; sp_ZPhi := ZPhi; sp_PsiT := PsiT |}.
Definition l2_fit (s : l2) (D Z : arr) : res l2 :=
  do p <- svd_fit D Z; Ok {| l2_reg := l2_reg s; l2_pre := Some p |}.
(* L2DecoupledSolver.fit: _tikhonov.py:550-553; the shape check comes last *)
Definition ld_fit (s : l2d) (D Z : arr) : l2d * res unit :=
  match svd_fit D Z with
  | Err e => (s, Err e)
  | Ok p => ({| ld_reg := ld_reg s; ld_pre := Some p |},
             match ld_reg s with None => Ok tt | Some v => ld_check (Some p) v end)
  end.

(* TikhonovSolver.solve: _tikhonov.py:946-954 *)
Definition tk_solve1 (mt : method) (op : lsopts) (D G : mat) (p : pads) : res mat :=
  match mt with
  | MLstsq => do A <- vstack2 D G;
              do _ <- guard (negb (nrows A =? nrows (pd_ZtPad p))) ValueError;
              la_lstsq op A (pd_ZtPad p)
  | MNormal => do A <- madd_r (pd_DtD p) (matmul (mT G) G); la_solve A (pd_DtZt p)
  end.
Definition tk_solve (s : tk) : res mat :=
  match tk_data s, tk_reg s, tk_pre s with
  | Some (D, _), Some G, Some p => do X <- tk_solve1 (tk_method s) (tk_opts s) D G p; Ok (mT X)
  | _, _, _ => Err AttributeError
  end.
(* posterior(): _tikhonov.py:997-1002 *)
Definition tk_posterior (s : tk) : res (mat * list mat) :=
  do O <- tk_solve s;
  match tk_data s, tk_reg s with
  | Some (D, _), Some G =>
      do rr <- tk_regresidual s (M O);
      do sg0 <- check_sigmas rr;
      let sg := map (fun x => (x / INR (nrows D))%R) sg0 in
      let P := sym (madd (matmul (mT D) D) (matmul (mT G) G)) in
      Ok (O, map (fun sig => mscale (/ sig) P) sg)
  | _, _ => Err AttributeError
  end.

(* TikhonovDecoupledSolver.solve: _tikhonov.py:1206-1218.  Row i uses regularizer i and no options; more
   regularizers than rows raise IndexError, fewer leave rows of np.empty unset (an error here). *)
Definition colm (j : nat) (A : mat) : mat := map (fun row => [nth j row 0%R]) A.
Definition no_opts : lsopts := {| o_cond := None; o_driver := None |}.
Definition td_solve (s : tkd) : res mat :=
  match td_data s, td_reg s, td_pre s with
  | Some (D, Z), Some Gs, Some p =>
      do rows <- mapM (fun iG => let '(i, G) := iG in
                        do _ <- guard (nrows Z <=? i) IndexError;
                        do X <- tk_solve1 (td_method s) no_opts D G
                                 {| pd_ZtPad := colm i (pd_ZtPad p); pd_DtD := pd_DtD p; pd_DtZt := colm i (pd_DtZt p) |};
                        Ok (map (fun row => nth 0 row 0%R) X))
                      (combine (seq 0 (length Gs)) Gs);
      if length Gs <? nrows Z then Err OtherError else Ok rows
  | _, _, _ => Err AttributeError
  end.
(* posterior(): _tikhonov.py:1261-1268 *)
Definition td_posterior (s : tkd) : res (mat * list mat) :=
  do O <- td_solve s;
  match td_data s, td_reg s with
  | Some (D, _), Some Gs =>
      do rr <- td_regresidual s (M O);
      do sg0 <- check_sigmas rr;
      let sg := map (fun x => (x / INR (nrows D))%R) sg0 in
      Ok (O, map2 (fun G sig => mscale (/ sig) (sym (madd (matmul (mT D) D) (matmul (mT G) G)))) Gs sg)
  | _, _ => Err AttributeError
  end.

(* TruncatedSVDSolver.fit: _tsvd.py:123-147 *)
Definition ts_fit (s : tsvd) (D Z : arr) : res tsvd :=
  do p <- svd_fit D Z;
  let d := Z.of_nat (ncols (sp_ZPhi p)) in
  let n := match ts_modes s with None => d | Some n => n end in
  let n1 := if (n <=? 0)%Z then (d + n)%Z else n in
  let n2 := if (d <? n1)%Z then d else n1 in
  Ok {| ts_modes := Some n2; ts_pre := Some p |}.
(* TruncatedSVDSolver.solve: _tsvd.py:158-160.  Rows of _SinvPsiT past the slice are never used, so the
   divisions by singular values are done after slicing; dividing by zero is an error here.
   The product of an r x 0 and a 0 x d array is the zero array. *)
Definition ts_solve (s : tsvd) : res mat :=
  match ts_pre s with
  | None => Err AttributeError
  | Some p =>
      let n := ts_modes s in
      let sv := py_slice None n (sp_svals p) in
      do _ <- guard (existsb (fun x => if Req_EM_T x 0 then true else false) sv) OtherError;
      let Sn := map2 (fun x row => vscale (/ x) row) sv (py_slice None n (sp_PsiT p)) in
      if nrows Sn =? 0 then Ok (mzeros (nrows (sp_ZPhi p)) (ncols (sp_PsiT p)))
      else Ok (matmul (map (py_slice None n) (sp_ZPhi p)) Sn)
  end.

(* TotalLeastSquaresSolver.fit: _total.py:90-112.  The data is stored before the size check. *)
Definition tls_fit (s : tls) (D Z : arr) : tls * res unit :=
  match base_fit D Z with
  | Err e => (s, Err e)
  | Ok (D', Z') =>
      let d := ncols D' in let r := nrows Z' in
      let s1 := {| tl_data := Some (D', Z'); tl_sol := tl_sol s |} in
      if nrows D' <? d + r then (s1, Err ValueError)
      else
        match (do t <- la_svd (hcat D' (mT Z'));
               let '(Phi, sv, PsiT) := t in
               do a <- rmax sv; do b <- rmin sv;
               let ZZ := map (skipn d) (skipn d PsiT) in
               let DZ := map (firstn d) (skipn d PsiT) in
               let PS := map (fun row => vmul (skipn d row) (skipn d sv)) Phi in
               do X <- la_solve ZZ DZ;
               let Deltas := mscale (-1) (matmul PS (hcat ZZ DZ)) in
               Ok {| tl_Ohat := mscale (-1) X; tl_err := sqrt (mnorm2 Deltas);
                     tl_cond := if Req_EM_T b 0 then None else Some (a / b)%R |}) with
        | Err e => (s1, Err e)
        | Ok w => ({| tl_data := Some (D', Z'); tl_sol := Some w |}, Ok tt)
        end
  end.
(* solve: _total.py:114-127; requires data_matrix, then reads _Ohat *)
Definition tls_solve (s : tls) : res mat :=
  match tl_data s, tl_sol s with Some _, Some w => Ok (tl_Ohat w) | _, _ => Err AttributeError end.
Definition tls_error (s : tls) : res R :=
  match tl_sol s with Some w => Ok (tl_err w) | None => Err AttributeError end.
End Ext.

(* TikhonovSolver.get_operator_regularizer: _tikhonov.py:847-895.  An operator is non-parametric (a class or a
   PolynomialOperator of order p), affine or interpolated. *)
Inductive regop := RgOp (c : cls) | RgAff (a : aff) | RgItp (c : cls).
Definition regop_inputs (o : regop) : bool :=
  match o with RgOp c => has_inputs c | RgAff a => has_inputs (a_cls a) | RgItp c => has_inputs c end.
Definition regop_dim (r m : nat) (o : regop) : res nat :=
  match o with RgOp c => Ok (opdim (proto c) r m) | RgAff a => Ok (aff_opdim a r m) | RgItp _ => Err TypeError end.
(* v[a:b] = x *)
Definition set_range (v : vec) (a b : nat) (x : R) : vec := firstn a v ++ repeat x (Nat.min b (length v) - a) ++ skipn b v.
Fixpoint fill (idx : nat) (dims : list nat) (regs : vec) (v : vec) : vec :=
  match dims, regs with
  | d :: ds, x :: xs => fill (idx + d) ds xs (set_range v idx (idx + d) x)
  | _, _ => v
  end.
Definition get_operator_regularizer (ops : list regop) (params : vec) (r m : nat) : res vec :=
  if negb (length ops =? length params) then Err ValueError
  else if existsb regop_inputs ops && (m =? 0) then Err ValueError
  else do dims <- mapM (regop_dim r m) ops; Ok (fill 0 dims params (vzeros (lsumn dims))).

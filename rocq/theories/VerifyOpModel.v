(* VerifyOpModel.v -- the verify() methods of operators: OperatorTemplate.verify (operators/_base.py:226-495),
   OpInfOperator.verify (822-892) and ParametricOperatorTemplate.verify (1126-1198).  An operator, of the library or
   of a user, is a record of its attributes and methods.  Random arrays are parameters; printing and plotting are not
   modelled; apply() returns arrays (a result of another type is not modelled).  No proofs here. *)
From Coq Require Import String ZArith.
From Verif Require Export VerifyModel SaveModel.
#[local] Open Scope string_scope.
#[local] Open Scope nat_scope.
#[local] Open Scope list_scope.

(* np.allclose(a, b) with broadcasting of vectors and matrices *)
Definition rclose (x y : R) : bool := rleb (Rabs (x - y)) (/ 10 ^ 8 + / 10 ^ 5 * Rabs y).
Definition as2 (a : arr) : mat := match a with V v => [v] | M A => A end.
Definition bcdim (a b : nat) : option nat := if a =? b then Some a else if a =? 1 then Some b else if b =? 1 then Some a else None.
Definition bidx (n i : nat) : nat := if n =? 1 then 0 else i.
Definition bclose (a b : arr) : res bool :=
  let A := as2 a in let B := as2 b in
  match bcdim (nrows A) (nrows B), bcdim (ncols A) (ncols B) with
  | Some n, Some k =>
      Ok (forallb (fun i => forallb (fun j => rclose (mget A (bidx (nrows A) i) (bidx (ncols A) j)) (mget B (bidx (nrows B) i) (bidx (ncols B) j))) (seq 0 k)) (seq 0 n))
  | _, _ => Err ValueError
  end.
(* for _ in range(n): body *)
Fixpoint each (f : nat -> res unit) (l : list nat) : res unit := match l with [] => Ok tt | i :: l' => do _ <- f i; each f l' end.
(* a.shape == (n,) and a.shape == (n, k) *)
Definition vshape (n : nat) (a : arr) : bool := match a with V v => length v =? n | M _ => false end.
Definition mshape (n k : nat) (a : arr) : bool := match a with M A => shape_is n k A | V _ => false end.

(* ---- the object ------------------------------------------------------------------------------------------------------ *)
(* what verify() looks at of an operator: its class, state_dimension, input_dimension (None: not an int, or negative)
   and apply() *)
Record opx := { x_class : str; x_r : option nat; x_m : option nat; x_apply : arr -> option arr -> res arr }.
(* the value of jacobian(): the number 0, a two-dimensional array, or something else *)
Inductive jval := JvZero | JvMat (A : mat) | JvOther.
(* the operator itself.  Methods that are not implemented (NotImplementedError) are None.  galerkin() may return something
   that is no operator (None); copy() also tells whether it returns the object itself *)
Record vop := { vp_self : opx; vp_hasin : bool; vp_jac : option (vec -> option vec -> res jval);
                vp_gal : option (mat -> option mat -> res (option opx)); vp_copy : res (bool * opx);
                vp_save : option (fs -> str -> fs * wstat); vp_load : option (fs -> str -> res opx) }.
(* the random arrays: np.random.random, np.random.standard_normal, _orth; dr_q: loop number, iteration, size *)
Record draws := { dr_Q : nat -> nat -> mat; dr_U : nat -> nat -> mat; dr_x : nat -> vec; dr_V : nat -> nat -> mat; dr_W : nat -> nat -> mat;
                  dr_q : nat -> nat -> nat -> vec }.

(* ---- jacobian(): 298-362 --------------------------------------------------------------------------------------------- *)
(* x + h * E[i] *)
Definition bump (x : vec) (h : R) (i : nat) : vec := map (fun j => (vget x j + h * (if i =? j then 1 else 0))%R) (seq 0 (length x)).
(* (f(x + h * E[i]) - f(x)) / h; results that are not vectors of one length are not broadcast here *)
Definition diffq (f : arr -> res arr) (x : vec) (h : R) (i : nat) : res vec :=
  do a <- f (V (bump x h i)); do b <- f (V x);
  match a, b with
  | V a, V b => if length a =? length b then Ok (map2 (fun s t => ((s - t) / h)%R) a b) else Err ValueError
  | _, _ => Err ValueError
  end.
(* _gradient: 299-304 *)
Definition fd_gradient (f : arr -> res arr) (x : vec) (h : R) : res mat :=
  do cols <- mapM (diffq f x h) (seq 0 (length x));
  if forallb (fun c => length c =? length x) cols then Ok (mT cols) else Err ValueError.
(* np.logspace(-10, -1, 10)[::-1] *)
Definition steps : vec := map (fun i => (/ 10 ^ S i)%R) (seq 0 10).
(* _finite_difference_check and np.min(diffs) > fdifftol: 306-314, 357-360.  np.min is nan if one quotient is 0/0, and then
   not greater.  (A Jacobian of another shape at the second point is not broadcast here.) *)
Definition fd_check (f : arr -> res arr) (df : vec -> res jval) (r : nat) (x : vec) (tol : R) : res unit :=
  do J <- df x;
  do B <- match J with
          | JvMat B => if shape_is r r B then Ok B else Err ValueError
          | JvZero => Ok (repeat (repeat 0%R r) r)
          | JvOther => Err TypeError
          end;
  do gs <- mapM (fd_gradient f x) steps;
  rassert (negb (forallb (fun G => exceeds G B tol) gs)).
Definition v_jac (D : draws) (o : vop) (r : nat) (q : vec) (u : option vec) (tol : R) : res unit :=
  match vp_jac o with
  | None => Ok tt
  | Some df =>
      do J <- df q u;
      match J with
      | JvZero => Ok tt
      | JvMat A => if shape_is r r A then fd_check (fun x => x_apply (vp_self o) x (option_map V u)) (fun x => df x u) r (dr_x D r) tol
                   else Err VerificationError
      | JvOther => Err VerificationError
      end
  end.

(* ---- galerkin(): 364-417; lusolve: la.lu_factor and la.lu_solve --------------------------------------------------------- *)
Definition dims_are (hasin : bool) (r m : nat) (out : opx) : res unit :=
  do _ <- rassert (is_dim (x_r out) r); if hasin then rassert (is_dim (x_m out) m) else Ok tt.
Definition v_gal (lusolve : mat -> arr -> res arr) (D : draws) (ntests : nat) (o : vop) (r m : nat) (u : option vec) : res unit :=
  if r <=? 1 then Ok tt else
  match vp_gal o with
  | None => Ok tt
  | Some g =>
      let rn := r / 2 in let Vr := dr_V D r rn in let Wr := dr_W D r rn in let ua := option_map V u in
      do out <- g Vr (Some Wr);
      match out with
      | None => Err VerificationError
      | Some out =>
          do _ <- dims_are (vp_hasin o) rn m out;
          do _ <- each (fun i => let qr := dr_q D 0 i rn in
                    do y <- x_apply (vp_self o) (V (matvec Vr qr)) ua;
                    do b <- matdot (mT Wr) y;
                    do full <- lusolve (matmul (mT Wr) Vr) b;
                    do reduced <- x_apply out (V qr) ua;
                    do c <- bclose reduced full; rassert c) (seq 0 ntests);
          do out2 <- g Vr None;
          match out2 with
          | None => Err AttributeError
          | Some out2 =>
              each (fun i => let qr := dr_q D 1 i rn in
                do y <- x_apply (vp_self o) (V (matvec Vr qr)) ua;
                do full <- matdot (mT Vr) y;
                do reduced <- x_apply out2 (V qr) ua;
                do c <- bclose reduced full; rassert c) (seq 0 ntests)
          end
      end
  end.

(* the loops 443-450 and 482-489: out.apply(q, u) against self.apply(q, u) *)
Definition same_results (D : draws) (loop ntests : nat) (o : vop) (out : opx) (r : nat) (u : option vec) : res unit :=
  each (fun i => let q := V (dr_q D loop i r) in
    do a <- x_apply out q (option_map V u); do b <- x_apply (vp_self o) q (option_map V u);
    do c <- bclose a b; rassert c) (seq 0 ntests).
(* copy(): 424-451 *)
Definition v_copy (D : draws) (ntests : nat) (o : vop) (r m : nat) (u : option vec) : res unit :=
  do c <- vp_copy o;
  let '(is_self, out) := c in
  do _ <- rassert (negb is_self);
  do _ <- rassert (String.eqb (x_class out) (x_class (vp_self o)));
  do _ <- dims_are (vp_hasin o) r m out;
  same_results D 2 ntests o out r u.
(* what follows a successful load: 461-490 *)
Definition v_loaded (D : draws) (ntests : nat) (o : vop) (out : opx) (r m : nat) (u : option vec) : res unit :=
  do _ <- rassert (String.eqb (x_class out) (x_class (vp_self o)));
  do _ <- dims_are (vp_hasin o) r m out;
  same_results D 3 ntests o out r u.
Definition tempfile : str := "_operatorverification.h5".
(* if os.path.isfile(p): os.remove(p) *)
Definition remove_file (p : str) (f : fs) : fs :=
  match f p with Some (File _) => fun q => if String.eqb p q then None else f q | _ => f end.
Definition stat_of (x : res unit) : wstat := match x with Ok _ => Done | Err e => Raised e end.
(* save() and load(): 453-495.  A killed process does not reach the finally clause *)
Definition v_save (D : draws) (ntests : nat) (o : vop) (r m : nat) (u : option vec) (f : fs) : fs * wstat :=
  let '(f1, s) := match vp_save o with None => (f, Raised NotImplementedError) | Some sv => sv f tempfile end in
  match s, vp_load o with
  | Killed, _ => (f1, Killed)
  | Raised NotImplementedError, _ | Done, None => (remove_file tempfile f1, Done)
  | Raised e, _ => (remove_file tempfile f1, Raised e)
  | Done, Some ld =>
      (remove_file tempfile f1,
       match ld f1 tempfile with
       | Err NotImplementedError => Done
       | Err e => Raised e
       | Ok out => stat_of (v_loaded D ntests o out r m u)
       end)
  end.

(* ---- OperatorTemplate.verify ------------------------------------------------------------------------------------------- *)
Definition col0 (A : mat) : vec := map (fun row => nth 0 row 0%R) A.
Definition pos_dim (x : option nat) : bool := match x with Some (S _) => true | _ => false end.
Definition dim_val (x : option nat) : nat := match x with Some n => n | None => 0 end.
(* 259-274 *)
Definition v_dims (o : vop) : res unit :=
  do _ <- rassert (pos_dim (x_r (vp_self o))); rassert (negb (vp_hasin o) || pos_dim (x_m (vp_self o))).
(* apply(): 276-318 *)
Definition v_apply (o : vop) (r k : nat) (Q : mat) (U : option mat) : res unit :=
  do _ <- (if k =? 0 then Err IndexError else Ok tt);
  do a <- x_apply (vp_self o) (V (col0 Q)) (option_map (fun U => V (col0 U)) U);
  do _ <- rassert (vshape r a);
  do b <- x_apply (vp_self o) (M Q) (option_map M U);
  rassert (mshape r k b).
Definition v_operator (lusolve : mat -> arr -> res arr) (D : draws) (k ntests : nat) (tol : R) (o : vop) (f : fs) : fs * wstat :=
  let r := dim_val (x_r (vp_self o)) in
  let m := dim_val (x_m (vp_self o)) in
  let Q := dr_Q D r k in
  let U := if vp_hasin o then Some (dr_U D m k) else None in
  let u := option_map col0 U in
  match (do _ <- v_dims o;
         do _ <- v_apply o r k Q U;
         do _ <- v_jac D o r (col0 Q) u tol;
         do _ <- v_gal lusolve D ntests o r m u;
         v_copy D ntests o r m u) with
  | Err e => (f, Raised e)
  | Ok _ => v_save D ntests o r m u f
  end.

(* ---- OpInfOperator.verify: 822-892 -------------------------------------------------------------------------------------- *)
(* operator_dimension and datablock: None if the attribute is not a plain function (no @staticmethod); a dimension that is
   not an int and a data block that is not a two-dimensional array are None *)
Record opclass := { k_dim : option (nat -> nat -> option nat); k_data : option (mat -> mat -> res (option mat)) }.
Definition v_static (c : opclass) (D : draws) (k r m : nat) : res unit :=
  match k_dim c with
  | None => Err VerificationError
  | Some dim =>
      do _ <- rassert (pos_dim (dim r m));
      match k_data c with
      | None => Err VerificationError
      | Some data => do Dt <- data (dr_Q D r k) (dr_U D m k);
                     match Dt with None => Err VerificationError | Some Dt => rassert (shape_is (dim_val (dim r m)) k Dt) end
      end
  end.
(* trained: entries is not None; the tolerance of the finite differences is the default *)
Definition v_opinf (lusolve : mat -> arr -> res arr) (D : draws) (k ntests r m : nat) (c : opclass) (trained : bool) (o : vop) (f : fs) : fs * wstat :=
  match v_static c D k r m with
  | Err e => (f, Raised e)
  | Ok _ => if trained then v_operator lusolve D k ntests (/ 10 ^ 5)%R o f else (f, Done)
  end.

(* ---- the operators of the library ----------------------------------------------------------------------------------------- *)
Definition lib_x (o : mop) : opx :=
  {| x_class := base_name (mo_cls o); x_r := option_map op_rows (mo_ent o); x_m := option_map op_inputs (mo_ent o); x_apply := op_apply o |}.
Definition lib_jac (J : jac) : jval := match J with JZero => JvZero | JMat A => JvMat A end.
(* every operator_dimension and datablock in operators/_nonparametric.py is a static method *)
Definition lib_class (c : cls) : opclass :=
  {| k_dim := Some (fun r m => Some (opdim (proto c) r m)); k_data := Some (fun Q U => do B <- datablock (proto c) (M Q) (M U); Ok (Some B)) |}.
(* those in operators/_polynomial_operator.py:66, 89 are not *)
Definition polynomial_class : opclass := {| k_dim := None; k_data := None |}.
Section Library.
Variables (solve : mat -> mat -> res mat) (junk : nat -> vec) (I : spi) (w : world).
Definition lib_op (o : mop) : vop :=
  {| vp_self := lib_x o; vp_hasin := has_inputs (mo_cls o);
     vp_jac := Some (fun q u => do J <- op_jacobian junk o q u; Ok (lib_jac J));
     vp_gal := Some (fun Vr Wr => match mo_ent o with
                                  | None => Err AttributeError
                                  | Some e => do g <- galerkin solve junk e Vr Wr; Ok (Some (lib_x {| mo_cls := mo_cls o; mo_ent := Some g |}))
                                  end);
     vp_copy := do c <- mop_copy o; Ok (false, lib_x c);
     vp_save := Some (fun f p => save I w f p None (SvOp o));
     vp_load := Some (fun f p => do x <- load_file f p (op_load (mo_cls o)); Ok (lib_x x)) |}.
(* op.verify() *)
Definition op_verify (lusolve : mat -> arr -> res arr) (D : draws) (k ntests r m : nat) (o : mop) (f : fs) : fs * wstat :=
  v_opinf lusolve D k ntests r m (lib_class (mo_cls o)) (negb (uncal o)) (lib_op o) f.
End Library.

(* ---- ParametricOperatorTemplate.verify: 1126-1198 ---------------------------------------------------------------------------- *)
(* the evaluated operator: isinstance(_, _OperatorClass), is_nonparametric, state_dimension, has_inputs, input_dimension *)
Record evx := { e_inst : bool; e_nonpar : bool; e_r : option nat; e_hasin : bool; e_m : option nat }.
(* w_base: issubclass(_OperatorClass, OperatorTemplate) *)
Record vparam := { w_base : bool; w_r : option nat; w_m : option nat; w_hasin : bool; w_p : option nat; w_eval : pval -> res evx }.
(* np.random.standard_normal(p): one number if p is None *)
Definition test_param (draw : nat -> vec) (draw1 : R) (p : option nat) (t : option pval) : pval :=
  match t with Some t => t | None => match p with Some p => PV (draw p) | None => PS draw1 end end.
(* np.shape(t) == (p,) *)
Definition pshape_is (p : option nat) (t : pval) : bool := match t, p with PV v, Some p => length v =? p | _, _ => false end.
Definition v_param (W : vparam) (draw : nat -> vec) (draw1 : R) (t : option pval) : res unit :=
  do _ <- rassert (w_base W);
  do _ <- rassert (pos_dim (w_r W));
  do _ <- rassert (negb (w_hasin W) || pos_dim (w_m W));
  let t := test_param draw draw1 (w_p W) t in
  if negb (pshape_is (w_p W) t) then Err ValueError
  else do e <- w_eval W t;
       do _ <- rassert (e_inst e); do _ <- rassert (e_nonpar e);
       do _ <- rassert (is_dim (w_r W) (dim_val (e_r e)) && match e_r e with Some _ => true | None => false end);
       if w_hasin W then do _ <- rassert (e_hasin e); rassert (is_dim (e_m e) (dim_val (w_m W)))
       else rassert (negb (e_hasin e)).
(* the library's operators: state_dimension, input_dimension, operators/_base.py:1251-1264, _affine.py:712-714, 758-763,
   _interpolate.py:827-829, 880-885 *)
Definition first_dims (ops : option (list op)) : option nat * option nat :=
  match ops with Some (e :: _) => (Some (op_rows e), Some (op_inputs e)) | _ => (None, None) end.
Definition class_of (o : op) : cls :=
  match o with OConst _ => CConst | OLin _ => CLin | OPoly d _ => CPoly d | OInp _ => CInp | OStIn _ => CStIn end.
Definition ev_lib (c : cls) (o : op) : evx :=
  {| e_inst := cls_eqb (class_of o) c; e_nonpar := true; e_r := Some (op_rows o); e_hasin := has_inputs (class_of o); e_m := Some (op_inputs o) |}.
Definition aff_w (a : aff) : vparam :=
  {| w_base := true; w_r := fst (first_dims (a_entries a)); w_m := snd (first_dims (a_entries a)); w_hasin := has_inputs (a_cls a);
     w_p := a_pdim a; w_eval := fun mu => do o <- snd (aff_evaluate a mu); Ok (ev_lib (a_cls a) o) |}.
Definition itp_w (t : itp) : vparam :=
  {| w_base := true; w_r := fst (first_dims (i_entries t)); w_m := snd (first_dims (i_entries t)); w_hasin := has_inputs (i_cls t);
     w_p := i_pdim t; w_eval := fun mu => do o <- i_evaluate t mu; Ok (ev_lib (i_cls t) o) |}.

(* SpecVerifyOp.v -- vocabulary for the statements about verify() of operators. *)
From Coq Require Import String ZArith.
From Verif Require Export VerifyOpModel SpecVerify SpecSave SpecMono SpecExt.
#[local] Open Scope string_scope.
#[local] Open Scope nat_scope.

(* the difference quotients of f at x with step h: column b is (f(x + h e_b) - f(x)) / h *)
Definition quotients (r : nat) (f : vec -> vec) (x : vec) (h : R) : mat :=
  map (fun a => map (fun b => ((vget (f (along x (nth b (eye r) []) h)) a - vget (f x) a) / h)%R) (seq 0 r)) (seq 0 r).
(* for one of the steps 1e-1, ..., 1e-10 they are within the relative tolerance of J (for J = 0: equal to it) *)
Definition fd_agrees (r : nat) (tol : R) (f : vec -> vec) (x : vec) (J : mat) : Prop :=
  exists i, 1 <= i <= 10 /\ (distance r r (quotients r f x (/ 10 ^ i)) J <= tol * norm r r J)%R.
(* the random arrays have the shapes the code asks for, and _orth gives orthonormal columns *)
Definition drawn (D : draws) : Prop :=
  (forall r k, is_mat r k (dr_Q D r k)) /\ (forall m k, is_mat m k (dr_U D m k)) /\ (forall r, is_vec r (dr_x D r)) /\
  (forall n r, r <= n -> is_mat n r (dr_V D n r) /\ matmul (mT (dr_V D n r)) (dr_V D n r) = eye r) /\
  (forall n r, r <= n -> is_mat n r (dr_W D n r)) /\ (forall l i r, is_vec r (dr_q D l i r)).
(* the two bases drawn for an operator with n states are not in a special position: W'V is invertible (and it is not close
   to the identity without being equal to it) *)
Definition general_position (D : draws) (n : nat) : Prop :=
  let r := n / 2 in let WV := matmul (mT (dr_W D n r)) (dr_V D n r) in
  (WV = eye r \/ allclose WV (eye r) = false) /\ exists P, is_mat r r P /\ matmul P WV = eye r.
(* la.lu_factor and la.lu_solve solve invertible systems *)
Definition lu_spec (lusolve : mat -> arr -> res arr) : Prop :=
  forall r A P b, is_mat r r A -> is_mat r r P -> matmul P A = eye r -> is_vec r b -> lusolve A (V b) = Ok (V (matvec P b)).
(* the sizes up to which the Newton iteration of the compressed Kronecker products is known to be exact (see C20) *)
Definition size_ok (r : nat) (e : op) : Prop :=
  forall d H, e = OPoly d H -> match d with Quadratic => True | Cubic => (INR r <= 10 ^ 11)%R | Quartic => (INR r <= 10 ^ 8)%R end.
(* the input verify() applies the operator to *)
Definition test_input (D : draws) (c : cls) (m k : nat) : option vec := if has_inputs c then Some (col0 (dr_U D m k)) else None.
(* the finite difference check of the Jacobian at the drawn point: the Jacobian is the number 0 (and nothing is checked), or
   the difference quotients of apply agree with it *)
Definition jacobian_confirmed (junk : nat -> vec) (D : draws) (o : mop) (r : nat) (u : option vec) : Prop :=
  exists J, op_jacobian junk o (dr_x D r) u = Ok J /\
  match J with
  | JZero => True
  | JMat J => forall f, (forall q, is_vec r q -> op_apply o (V q) (option_map V u) = Ok (V (f q))) -> fd_agrees r (/ 10 ^ 5) f (dr_x D r) J
  end.
(* no file has changed *)
Definition same_files (f g : fs) : Prop := forall p, g p = f p.

(* np.allclose: the shapes agree after a dimension of size one is stretched and a vector is read as one row, and each entry of
   x differs from that of y by at most 1e-8 + 1e-5 |that of y| *)
Definition rows_of (a : arr) : nat := match a with V _ => 1 | M A => nrows A end.
Definition cols_of (a : arr) : nat := match a with V v => length v | M A => ncols A end.
Definition common (a b n : nat) : Prop := (a = n \/ a = 1) /\ (b = n \/ b = 1) /\ (a = n \/ b = n).
Definition entry_of (a : arr) (i j : nat) : R :=
  let i' := if rows_of a =? 1 then 0 else i in let j' := if cols_of a =? 1 then 0 else j in match a with V v => vget v j' | M A => mget A i' j' end.
Definition all_close (x y : arr) : Prop :=
  exists n k, common (rows_of x) (rows_of y) n /\ common (cols_of x) (cols_of y) k /\
  forall i j, i < n -> j < k -> (Rabs (entry_of x i j - entry_of y i j) <= / 10 ^ 8 + / 10 ^ 5 * Rabs (entry_of y i j))%R.

(* ---- objects of a user ------------------------------------------------------------------------------------------------- *)
(* a.apply and b.apply agree on the states drawn in a loop, up to np.allclose *)
Definition agree_on (D : draws) (loop ntests : nat) (a b : opx) (r : nat) (u : option vec) : Prop :=
  forall i, i < ntests -> exists x y, x_apply a (V (dr_q D loop i r)) (option_map V u) = Ok x /\ x_apply b (V (dr_q D loop i r)) (option_map V u) = Ok y /\
  all_close x y.
(* it has these dimensions *)
Definition has_dims (hasin : bool) (r m : nat) (a : opx) : Prop := x_r a = Some r /\ (hasin = true -> x_m a = Some m).
(* the projected operator g and the projection of the operator a agree on the reduced states drawn in a loop; proj maps
   a.apply(V qr) to the reduced space *)
Definition projects_on (D : draws) (loop ntests : nat) (Vr : mat) (proj : arr -> res arr) (a g : opx) (rn : nat) (u : option vec) : Prop :=
  forall i, i < ntests -> exists y full reduced, x_apply a (V (matvec Vr (dr_q D loop i rn))) (option_map V u) = Ok y /\ proj y = Ok full /\
  x_apply g (V (dr_q D loop i rn)) (option_map V u) = Ok reduced /\ all_close reduced full.
(* save writes to its own path only *)
Definition writes_only (sv : fs -> str -> fs * wstat) : Prop := forall f p q, q <> p -> fst (sv f p) q = f q.
(* everything an accepted operator has been shown to satisfy *)
Definition checked (lusolve : mat -> arr -> res arr) (D : draws) (k ntests : nat) (tol : R) (o : vop) (f : fs) (r m : nat) : Prop :=
  let a := vp_self o in
  let U := if vp_hasin o then Some (dr_U D m k) else None in
  let u := option_map col0 U in
  has_dims (vp_hasin o) r m a /\ 0 < r /\ (vp_hasin o = true -> 0 < m) /\
  (exists y, x_apply a (V (col0 (dr_Q D r k))) (option_map V u) = Ok (V y) /\ length y = r) /\
  (exists Y, x_apply a (M (dr_Q D r k)) (option_map M U) = Ok (M Y) /\ nrows Y = r /\ ncols Y = k) /\
  (forall df, vp_jac o = Some df -> df (col0 (dr_Q D r k)) u = Ok JvZero \/
     (exists A, df (col0 (dr_Q D r k)) u = Ok (JvMat A) /\ nrows A = r /\ ncols A = r) /\
     forall F B, (forall q, is_vec r q -> x_apply a (V q) (option_map V u) = Ok (V (F q)) /\ is_vec r (F q)) -> is_vec r (dr_x D r) ->
       df (dr_x D r) u = Ok (JvMat B) -> is_mat r r B -> fd_agrees r tol F (dr_x D r) B) /\
  (forall g, vp_gal o = Some g -> 1 < r ->
     let rn := r / 2 in let Vr := dr_V D r rn in let Wr := dr_W D r rn in
     exists p p2, g Vr (Some Wr) = Ok (Some p) /\ has_dims (vp_hasin o) rn m p /\
       projects_on D 0 ntests Vr (fun y => do b <- matdot (mT Wr) y; lusolve (matmul (mT Wr) Vr) b) a p rn u /\
       g Vr None = Ok (Some p2) /\ projects_on D 1 ntests Vr (matdot (mT Vr)) a p2 rn u) /\
  (exists c, vp_copy o = Ok (false, c) /\ x_class c = x_class a /\ has_dims (vp_hasin o) r m c /\ agree_on D 2 ntests c a r u) /\
  (forall sv ld f1 c, vp_save o = Some sv -> vp_load o = Some ld -> sv f tempfile = (f1, Done) -> ld f1 tempfile = Ok c ->
     x_class c = x_class a /\ has_dims (vp_hasin o) r m c /\ agree_on D 3 ntests c a r u).

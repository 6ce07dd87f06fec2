(* Prop_Ops.v -- properties C20, C21, C22, C23, C26. *)
From Verif Require Import SpecOps SpecExt TupleFinal OpsProofs JacProofs GalProofs PolyOpProofs EntriesProofs.
#[local] Open Scope nat_scope.

(* C20: whatever jacobian(q, u) returns is the derivative of apply in every direction d.
   (JZero is the scalar 0 some operators return; jac_dir gives J @ d.) *)
Theorem C20_jacobian_is_derivative :
  forall (junk : nat -> vec) (r m : nat) (o : op) (q u : vec) (J : jac),
  (forall n, length (junk n) = n) -> 0 < r -> 0 < m -> wf_op r m o -> is_vec r q -> is_vec m u ->
  jacobian junk o q u = Ok J ->
  forall d, is_vec r d -> exists f : R -> vec,
    (forall t, apply o (V (along q d t)) (V u) = Ok (V (f t))) /\
    forall i, i < r ->
      derivable_pt_lim (fun t => vget (f t) i) 0
        (vget (match J with JZero => repeat 0%R r | JMat A => matvec A d end) i).
Proof. exact jacobian_derivative. Qed.
Print Assumptions C20_jacobian_is_derivative.

(* C20: jacobian does return on operands of the right shape. *)
Theorem C20_jacobian_total : forall (junk : nat -> vec) (r m : nat) (o : op) (q u : vec),
  0 < r -> 0 < m -> wf_op r m o -> is_vec r q -> is_vec m u ->
  (forall d H, o = OPoly d H ->
     match d with Quadratic => True | Cubic => (INR r <= 10 ^ 11)%R | Quartic => (INR r <= 10 ^ 8)%R end) ->
  exists J, jacobian junk o q u = Ok J.
Proof. exact jacobian_total. Qed.
Print Assumptions C20_jacobian_total.

(* C20 fails for PolynomialOperator, which inherits a Jacobian that is always zero. *)
Theorem C20_polynomial_operator_refuted : exists (p r : nat) (E : mat) (q d : vec) (f : R -> vec),
  is_mat r (pdim p r) E /\ is_vec r q /\ is_vec r d /\
  (forall t, papply p E (V (along q d t)) = Ok (V (f t))) /\
  pjacobian p E q = JZero /\ ~ derivable_pt_lim (fun t => vget (f t) 0) 0 0%R.
Proof.
  exists 1, 1, [[1%R]], [0%R], [1%R], (fun t => [t]). split; [repeat constructor|]. split; [reflexivity|]. split; [reflexivity|].
  split; [intros t; cbn; unfold along; cbn; do 3 f_equal; ring|]. split; [reflexivity|].
  intros H. pose proof (uniqueness_limite _ 0%R 0%R 1%R H (derivable_pt_lim_id 0%R)). lra. Qed.
Print Assumptions C20_polynomial_operator_refuted.

Example C20_case : wf_op 2 1 (OPoly Quadratic [[1; 2; 3]; [4; 5; 6]]%R) /\ wf_op 2 1 (OStIn [[1; 2]; [3; 4]]%R) /\
  is_vec 2 [1; 2]%R /\ is_vec 1 [3]%R.
Proof. repeat split; repeat constructor. Qed.

(* C21: entries @ datablock(Q, U) is apply(Q, U); datablock has operator_dimension(r, m) rows; column j is
   apply of column j. *)
Theorem C21_datablock_reproduces_apply :
  forall (r m k : nat) (o : op) (Q U : mat), 0 < r -> 0 < m -> wf_op r m o -> is_mat r k Q -> is_mat m k U ->
  exists D Y, datablock o (M Q) (M U) = Ok D /\ apply o (M Q) (M U) = Ok (M Y) /\
    is_mat (opdim o r m) k D /\ is_mat r k Y /\ Y = matmul (entries2 o) D /\
    forall j, j < k -> apply o (V (colv r Q j)) (V (colv m U j)) = Ok (V (colv r Y j)).
Proof. exact apply_columns. Qed.
Print Assumptions C21_datablock_reproduces_apply.

Example C21_case : wf_op 2 2 (OStIn [[1; 2; 3; 4]; [5; 6; 7; 8]]%R) /\ is_mat 2 3 [[1; 2; 3]; [4; 5; 6]]%R.
Proof. repeat split; repeat constructor. Qed.

(* C22: (W'V) (galerkin(V, W).apply(q)) = W' op.apply(V q).  solve_spec says la.solve solves when it returns.
   np.allclose skips the solve when W'V is within 1e-8 of the identity but not equal to it: excluded here. *)
Theorem C22_galerkin_commutes :
  forall (solve : mat -> mat -> res mat) (junk : nat -> vec) (n r m : nat) (o : op) (Vr : mat) (Wr : option mat),
  solve_spec solve -> (forall k, length (junk k) = k) -> 0 < n -> 0 < r -> 0 < m -> wf_op n m o -> is_mat n r Vr ->
  let W := match Wr with None => Vr | Some W => W end in
  is_mat n r W ->
  (matmul (mT W) Vr = eye r \/ allclose (matmul (mT W) Vr) (eye r) = false) ->
  forall g, galerkin solve junk o Vr Wr = Ok g ->
  wf_op r m g /\ forall q u, is_vec r q -> is_vec m u -> exists y z,
    apply o (V (matvec Vr q)) (V u) = Ok (V y) /\ apply g (V q) (V u) = Ok (V z) /\ is_vec r z /\
    matvec (matmul (mT W) Vr) z = matvec (mT W) y.
Proof. exact galerkin_commutes. Qed.
Print Assumptions C22_galerkin_commutes.

(* C22: with W'V invertible (left inverse P) the reduced operator is P W' op(V q). *)
Theorem C22_galerkin_inverse :
  forall (solve : mat -> mat -> res mat) (junk : nat -> vec) (n r m : nat) (o : op) (Vr : mat) (Wr : option mat),
  solve_spec solve -> (forall k, length (junk k) = k) -> 0 < n -> 0 < r -> 0 < m -> wf_op n m o -> is_mat n r Vr ->
  let W := match Wr with None => Vr | Some W => W end in
  is_mat n r W ->
  (matmul (mT W) Vr = eye r \/ allclose (matmul (mT W) Vr) (eye r) = false) ->
  forall g P, is_mat r r P -> matmul P (matmul (mT W) Vr) = eye r -> galerkin solve junk o Vr Wr = Ok g ->
  forall q u, is_vec r q -> is_vec m u -> exists y,
    apply o (V (matvec Vr q)) (V u) = Ok (V y) /\
    apply g (V q) (V u) = Ok (V (matvec P (matvec (mT W) y))).
Proof. exact galerkin_inverse. Qed.
Print Assumptions C22_galerkin_inverse.

(* C22: galerkin returns when V'V = I, or when W'V is invertible and la.solve solves invertible systems. *)
Theorem C22_galerkin_total :
  forall (solve : mat -> mat -> res mat) (junk : nat -> vec) (n r m : nat) (o : op) (Vr : mat) (Wr : option mat),
  solve_spec solve -> (forall k, length (junk k) = k) -> 0 < n -> 0 < r -> 0 < m -> wf_op n m o -> is_mat n r Vr ->
  let W := match Wr with None => Vr | Some W => W end in
  is_mat n r W ->
  (matmul (mT W) Vr = eye r \/ allclose (matmul (mT W) Vr) (eye r) = false) ->
  (matmul (mT W) Vr = eye r \/
   solve_total solve /\ exists P, is_mat r r P /\ matmul P (matmul (mT W) Vr) = eye r) ->
  (forall d H, o = OPoly d H ->
     match d with Quadratic => True | Cubic => (INR n <= 10 ^ 11)%R | Quartic => (INR n <= 10 ^ 8)%R end) ->
  exists g, galerkin solve junk o Vr Wr = Ok g.
Proof. exact galerkin_total. Qed.
Print Assumptions C22_galerkin_total.

Theorem C22_galerkin_rejects_misaligned :
  forall (solve : mat -> mat -> res mat) (junk : nat -> vec) (n m : nat) (o : op) (Vr : mat) (Wr : option mat),
  0 < n -> wf_op n m o ->
  let W := match Wr with None => Vr | Some W => W end in
  (nrows W <> n \/ ncols Vr <> ncols W) -> galerkin solve junk o Vr Wr = Err DimensionalityError.
Proof. exact galerkin_rejects. Qed.
Print Assumptions C22_galerkin_rejects_misaligned.

Example C22_case : let Vr := [[1]; [0]]%R in
  wf_op 2 1 (OPoly Quadratic [[1; 2; 3]; [4; 5; 6]]%R) /\ is_mat 2 1 Vr /\ matmul (mT Vr) Vr = eye 1.
Proof. repeat split; repeat constructor. cbn. do 2 f_equal. ring. Qed.

(* C23: the data block of order p lists every monomial of degree p once (C17), C(r+p-1, p) of them. *)
Theorem C23_datablock_lists_monomials : forall (p r k : nat) (Q : mat), 0 < r -> is_mat r k Q ->
  exists D, pdatablock p (M Q) = Ok D /\ is_mat (pdim p r) k D /\
  forall j, j < k -> colv (pdim p r) D j = map (mono (colv r Q j)) (monomials p r).
Proof. exact pdatablock_ok. Qed.
Print Assumptions C23_datablock_lists_monomials.

Theorem C23_operator_dimension_counts_monomials : forall p r : nat, 0 < r -> pdim p r = length (monomials p r).
Proof. exact pdim_monomials. Qed.
Print Assumptions C23_operator_dimension_counts_monomials.

(* C23: orders 0 to 4 agree with the dedicated classes holding the same entries. *)
Theorem C23_agrees_with_dedicated_classes : forall (p r m : nat) (E : mat) (o : op),
  0 < r -> 0 < m -> is_mat r (pdim p r) E ->
  match p with
  | 0 => Some (OConst (map (fun row => nth 0 row 0%R) E))
  | 1 => Some (OLin E)
  | 2 => Some (OPoly Quadratic E) | 3 => Some (OPoly Cubic E) | 4 => Some (OPoly Quartic E)
  | _ => None
  end = Some o ->
  wf_op r m o /\
  (forall q u, is_vec r q -> is_vec m u -> papply p E (V q) = apply o (V q) (V u)) /\
  (forall k Q U, is_mat r k Q -> is_mat m k U -> papply p E (M Q) = apply o (M Q) (M U) /\
     pdatablock p (M Q) = datablock o (M Q) (M U)).
Proof. exact pagree. Qed.
Print Assumptions C23_agrees_with_dedicated_classes.

(* C23: apply multiplies the entries with the monomials, for every order. *)
Theorem C23_apply_is_polynomial : forall (p r : nat) (E : mat) (q : vec), 0 < r -> is_mat r (pdim p r) E -> is_vec r q ->
  papply p E (V q) = Ok (V (matvec E (map (mono q) (monomials p r)))).
Proof. exact papply_vec. Qed.
Print Assumptions C23_apply_is_polynomial.

Example C23_case : is_mat 2 (pdim 5 2) [[1; 2; 3; 4; 5; 6]; [1; 2; 3; 4; 5; 7]]%R /\ pdim 7 3 = 36.
Proof. split; [repeat constructor|reflexivity]. Qed.

(* C26: set_entries accepts an array exactly when it is finite and of an admissible shape. *)
Theorem C26_set_entries_accepts_exactly : forall (c : cls) (a : nd), is_nd a ->
  ((exists s, set_entries c (Array a) = Ok s) <->
   ((forall x, In x (data a) -> exists r, x = Fin r) /\
    match c with
    | CConst => (exists n, shape a = [n]) \/ (exists n, shape a = [1; n] \/ shape a = [n; 1])
    | CLin => shape a = [1] \/ exists n, shape a = [n; n]
    | CPoly d => shape a = [1] \/ (exists r, shape a = repeat r (S (deg d))) \/
                 (exists r, shape a = [r; r ^ deg d] \/ shape a = [r; operator_dimension d r])
    | CInp => (exists n, shape a = [n]) \/ exists r m, shape a = [r; m]
    | CStIn => shape a = [1] \/ exists r m, 0 < r /\ shape a = [r; r * m]
    end)).
Proof. exact set_entries_iff. Qed.
Print Assumptions C26_set_entries_accepts_exactly.

Theorem C26_non_arrays_rejected : forall c : cls, set_entries c NotArray = Err TypeError.
Proof. exact set_entries_rejects. Qed.
Print Assumptions C26_non_arrays_rejected.

(* C26: a full Kronecker matrix or (r, ..., r) tensor is stored as the operator it represents. *)
Theorem C26_full_kronecker_entries_stored : forall (d : degree) (a : nd) (r : nat) (v : vec), 0 < r ->
  holds a [r; r ^ deg d] v \/ holds a (repeat r (S (deg d))) v ->
  exists H, set_entries (CPoly d) (Array a) = Ok (Dense (OPoly d H)) /\ is_mat r (operator_dimension d r) H /\
  forall q i, is_vec r q -> i < r ->
    vget (matvec H (ckron_of Rmult d q)) i =
    bsum (r ^ deg d) (fun x => (vget v (i * r ^ deg d + x) * vget (kron_power (deg d) q) x)%R).
Proof. exact stored_poly. Qed.
Print Assumptions C26_full_kronecker_entries_stored.

Theorem C26_compressed_entries_stored : forall (d : degree) (a : nd) (r : nat) (v : vec), 1 < r ->
  holds a [r; operator_dimension d r] v ->
  exists H, set_entries (CPoly d) (Array a) = Ok (Dense (OPoly d H)) /\ is_mat r (operator_dimension d r) H /\
  forall i j, i < r -> j < operator_dimension d r -> mget H i j = vget v (i * operator_dimension d r + j).
Proof. exact stored_poly_compressed. Qed.
Print Assumptions C26_compressed_entries_stored.

Theorem C26_linear_entries_stored : forall (a : nd) (n : nat) (v : vec), holds a [n; n] v ->
  exists A, set_entries CLin (Array a) = Ok (Dense (OLin A)) /\ is_mat n n A /\
  forall i j, i < n -> j < n -> mget A i j = vget v (i * n + j).
Proof. exact stored_linear. Qed.
Print Assumptions C26_linear_entries_stored.

Theorem C26_input_entries_stored : forall (a : nd) (r m : nat) (v : vec), holds a [r; m] v ->
  exists B, set_entries CInp (Array a) = Ok (Dense (OInp B)) /\ is_mat r m B /\
  forall i j, i < r -> j < m -> mget B i j = vget v (i * m + j).
Proof. exact stored_input. Qed.
Print Assumptions C26_input_entries_stored.

Theorem C26_stateinput_entries_stored : forall (a : nd) (r m : nat) (v : vec), 0 < r -> holds a [r; r * m] v ->
  exists N, set_entries CStIn (Array a) = Ok (Dense (OStIn N)) /\ is_mat r (r * m) N /\
  forall i j, i < r -> j < r * m -> mget N i j = vget v (i * (r * m) + j).
Proof. exact stored_stateinput. Qed.
Print Assumptions C26_stateinput_entries_stored.

(* C26: over every sequence of calls, each answer is that of an object that only remembers the entries last
   stored (spec_run): a failed set_entries changes nothing, cached index masks and Jacobian tensors are never
   stale, and apply / jacobian without entries raise AttributeError. *)
Theorem C26_every_history : forall (junk : nat -> vec) (c : cls) (calls : list call),
  snd (run junk c cleared calls) = snd (spec_run junk c None calls).
Proof. exact history_lemma. Qed.
Print Assumptions C26_every_history.

(* C26: == holds exactly for the same class with the same entries. *)
Theorem C26_equality : forall a b : op, op_eqb a b = true <-> a = b.
Proof. exact op_eqb_eq. Qed.
Print Assumptions C26_equality.

(* C26: + adds the operators as functions, and rejects other classes. *)
Theorem C26_addition : forall (r m : nat) (a b : op), 0 < r -> wf_op r m a -> wf_op r m b -> same_class a b = true ->
  exists c, op_add a b = Ok c /\ wf_op r m c /\ same_class a c = true /\ entries2 c = madd (entries2 a) (entries2 b).
Proof. exact op_add_ok. Qed.
Print Assumptions C26_addition.

Theorem C26_addition_applies : forall (r m : nat) (a b c : op) (q u : vec), 0 < r -> 0 < m ->
  wf_op r m a -> wf_op r m b -> op_add a b = Ok c -> is_vec r q -> is_vec m u ->
  exists x y, apply a (V q) (V u) = Ok (V x) /\ apply b (V q) (V u) = Ok (V y) /\
    apply c (V q) (V u) = Ok (V (vadd x y)).
Proof. exact op_add_apply. Qed.
Print Assumptions C26_addition_applies.

Theorem C26_addition_rejects_other_class : forall a b : op, same_class a b = false -> op_add a b = Err TypeError.
Proof. exact add_type_error. Qed.
Print Assumptions C26_addition_rejects_other_class.

(* Operators of different sizes can be added when broadcasting applies. *)
Theorem C26_addition_checks_sizes_refuted : exists a b c,
  wf_op 1 1 a /\ wf_op 2 1 b /\ op_add a b = Ok c /\ wf_op 2 1 c.
Proof. exact add_broadcasts. Qed.
Print Assumptions C26_addition_checks_sizes_refuted.

(* Sparse entries of a LinearOperator are not checked for NaN or Inf. *)
Theorem C26_sparse_entries_finite_refuted : exists a : nd, is_nd a /\
  ~ (forall x, In x (data a) -> exists r, x = Fin r) /\ exists s, set_entries CLin (Sparse a) = Ok s.
Proof. exact sparse_nan. Qed.
Print Assumptions C26_sparse_entries_finite_refuted.

Example C26_case : is_nd {| shape := [2; 2]; data := [Fin 1; Fin 2; Fin 3; Fin 4]%R |} /\
  holds {| shape := [2; 2; 2]; data := map Fin [1; 2; 3; 4; 5; 6; 7; 8]%R |} (repeat 2 (S (deg Quadratic))) [1; 2; 3; 4; 5; 6; 7; 8]%R /\
  same_class (OLin [[1]]%R) (OLin [[2]]%R) = true.
Proof. repeat split. Qed.
Example C26_history_case : forall junk, exists a b c, snd (run junk CLin cleared
  [Apply (V [1%R]) (V []); SetEntries (Scalar (Fin 2%R)); SetEntries NotArray; Jacobian [1%R] []]) =
  [AArr (Err AttributeError); AUnit (Ok a); AUnit (Err b); AJac (Ok (JMat c))] /\ c = [[2%R]].
Proof. intros. do 3 eexists. split; reflexivity. Qed.

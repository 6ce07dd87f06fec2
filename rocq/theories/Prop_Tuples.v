(* Prop_Tuples.v -- properties C17, C18, C19. *)
From Verif Require Import TupleFinal.
#[local] Open Scope nat_scope.

(* C17: ckron(q) lists q_{i1} q_{i2} ... over the non-increasing index tuples, in lexicographic order. *)
Theorem C17_ckron_lists_monomials : forall (d : degree) (q : vec), q <> [] ->
  ckron Rmult d q = Ok (map (mono q) (monomials (deg d) (length q))).
Proof. exact ckron_enumerates. Qed.
Print Assumptions C17_ckron_lists_monomials.

(* C17: every monomial of the degree occurs exactly once among those tuples. *)
Theorem C17_each_monomial_once : forall p r : nat, NoDup (monomials p r) /\
  (forall t, length t = p -> Forall (fun i => i < r) t ->
     exists s, (In s (monomials p r) /\ Permutation s t) /\
               forall s', In s' (monomials p r) -> Permutation s' t -> s' = s).
Proof. exact monomials_once. Qed.
Print Assumptions C17_each_monomial_once.

(* C17: prod(q[ckron_indices(r)]) is ckron(q), and there are operator_dimension(r) products. *)
Theorem C17_ckron_indices_agree : forall (d : degree) (q : vec), q <> [] -> exists mask,
  ckron_indices d (length q) = Ok mask /\ maskprod q mask = ckron Rmult d q /\
  length mask = operator_dimension d (length q).
Proof. exact ckron_mask. Qed.
Print Assumptions C17_ckron_indices_agree.

(* C17: ckron of a matrix works on each column separately. *)
Theorem C17_ckron_columnwise : forall (d : degree) (r k : nat) (Q : mat) (j : nat),
  is_mat r k Q -> j < k ->
  map (fun row => vget row j) (ckron_of vmul d Q) = ckron_of Rmult d (colv r Q j).
Proof. exact ckron_of_col. Qed.
Print Assumptions C17_ckron_columnwise.

Example C17_case : [3; 5; 7]%R <> [] /\
  monomials 2 3 = [[0;0]; [1;0]; [1;1]; [2;0]; [2;1]; [2;2]] /\ operator_dimension Quartic 3 = 15 /\
  is_mat 2 2 [[1; 2]; [3; 4]]%R.
Proof. repeat split; try discriminate. repeat constructor. Qed.

(* C18: the compressed matrix times ckron(q) is the full matrix times q (x) ... (x) q. *)
Theorem C18_compress_preserves_operator : forall (d : degree) (a r : nat) (H : mat), 0 < a ->
  is_mat a (r ^ deg d) H ->
  exists Hc, compress d H = Ok Hc /\ is_mat a (operator_dimension d r) Hc /\
    forall q, is_vec r q -> matvec Hc (ckron_of Rmult d q) = matvec H (kron_power (deg d) q).
Proof. exact compress_preserves. Qed.
Print Assumptions C18_compress_preserves_operator.

Theorem C18_compress_rejects_other_shapes : forall (d : degree) (H : mat),
  (forall r, ncols H <> r ^ deg d) -> compress d H = Err ValueError.
Proof. exact compress_rejects. Qed.
Print Assumptions C18_compress_rejects_other_shapes.

Example C18_case : 0 < 1 /\ is_mat 1 (2 ^ deg Quadratic) [[1; 2; 3; 4]]%R.
Proof. repeat constructor. Qed.
Example C18_case_reject : forall r, ncols [[1; 2; 3]]%R <> r ^ deg Quadratic.
Proof. intros [|[|r]]; simpl; lia. Qed.

(* C19: expand_entries represents the same operator, compresses back, and is symmetric in the Kronecker
   indices.  `junk` is the uninitialised memory np.empty hands out.  The cubic and quartic classes find
   r by at most ten Newton steps; the guard bounds r where these are proved to suffice. *)
Theorem C19_expand_is_symmetric_right_inverse :
  forall (d : degree) (junk : nat -> vec) (a r : nat) (Hc : mat),
  (forall n, length (junk n) = n) -> 0 < a -> is_mat a (operator_dimension d r) Hc ->
  match d with Quadratic => True | Cubic => (INR r <= 10 ^ 11)%R | Quartic => (INR r <= 10 ^ 8)%R end ->
  exists H, expand d junk Hc = Ok H /\ is_mat a (r ^ deg d) H /\
    (forall q, is_vec r q -> matvec H (kron_power (deg d) q) = matvec Hc (ckron_of Rmult d q)) /\
    compress d H = Ok Hc /\
    (forall i s t, i < a -> In t (tuples (deg d) r) -> Permutation s t ->
                   mget H i (pos r s) = mget H i (pos r t)).
Proof. intros d junk a r Hc Hj Ha HM Hg. exact (expand_right_inverse d junk a r Hc Hj Ha HM Hg). Qed.
Print Assumptions C19_expand_is_symmetric_right_inverse.

(* C19 without any bound on r: whatever expand_entries returns is right (it may raise instead when the
   ten Newton steps do not converge, which happens only beyond the sizes above). *)
Theorem C19_expand_never_wrong :
  forall (d : degree) (junk : nat -> vec) (a r : nat) (Hc : mat),
  (forall n, length (junk n) = n) -> 0 < a -> is_mat a (operator_dimension d r) Hc ->
  forall H, expand d junk Hc = Ok H ->
    is_mat a (r ^ deg d) H /\
    (forall q, is_vec r q -> matvec H (kron_power (deg d) q) = matvec Hc (ckron_of Rmult d q)) /\
    compress d H = Ok Hc /\
    (forall i s t, i < a -> In t (tuples (deg d) r) -> Permutation s t ->
                   mget H i (pos r s) = mget H i (pos r t)).
Proof. exact expand_right_inverse'. Qed.
Print Assumptions C19_expand_never_wrong.

(* C19: expanding a compressed matrix averages each entry over the rearrangements of its index tuple. *)
Theorem C19_expand_compress_symmetrizes :
  forall (d : degree) (junk : nat -> vec) (a r : nat) (H : mat),
  (forall n, length (junk n) = n) -> 0 < a ->
  match d with Quadratic => True | Cubic => (INR r <= 10 ^ 11)%R | Quartic => (INR r <= 10 ^ 8)%R end ->
  is_mat a (r ^ deg d) H ->
  exists Hc Hs, compress d H = Ok Hc /\ expand d junk Hc = Ok Hs /\
    forall i t l, i < a -> In t (tuples (deg d) r) -> rearrangements t l ->
      mget Hs i (pos r t) = (lsum (map (fun s => mget H i (pos r s)) l) / INR (length l))%R.
Proof. exact expand_symmetrizes. Qed.
Print Assumptions C19_expand_compress_symmetrizes.

Theorem C19_expand_rejects_other_shapes : forall (d : degree) (junk : nat -> vec) (Hc : mat),
  (forall r, ncols Hc <> operator_dimension d r) -> expand d junk Hc = Err ValueError.
Proof. exact expand_rejects. Qed.
Print Assumptions C19_expand_rejects_other_shapes.

Example C19_case : (forall n, length (repeat 9%R n) = n) /\ (INR 3 <= 10 ^ 8)%R /\
  is_mat 1 (operator_dimension Cubic 2) [[1; 2; 3; 4]]%R /\ rearrangements [1; 0] [[1; 0]; [0; 1]].
Proof. split; [intros; apply repeat_length|]. split; [simpl; lra|]. split; [repeat constructor|].
  split; [repeat constructor; simpl; intuition discriminate|]. intros s; split.
  - intros [<-|[<-|[]]]; [auto|apply perm_swap].
  - intros H. apply Permutation_sym, Permutation_length_2_inv in H. destruct H as [->| ->]; simpl; auto. Qed.
Example C19_case_reject : forall r, ncols [[1; 2]]%R <> operator_dimension Quadratic r.
Proof. simpl. intros r H. unfold opdim2 in H. destruct r as [|[|[|r]]]; try discriminate.
  assert (3 <= S (S (S r)) * (S (S (S r)) + 1) / 2) by (apply Nat.div_le_lower_bound; lia). lia. Qed.

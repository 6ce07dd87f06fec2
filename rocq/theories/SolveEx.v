(* SolveEx.v -- routines that meet what is assumed of scipy.linalg.solve and of lu_factor / lu_solve: elimination with exact
   numbers.  Used in the examples only. *)
From Verif Require Export LinSys MatAlg SpecExt SpecVerifyOp.
#[local] Open Scope R_scope.

Lemma first_nonzero n (f : nat -> R) : (forall l, (l < n)%nat -> f l = 0) + {j | (j < n)%nat /\ f j <> 0}.
Proof.
  induction n as [|q [H|(j & Hj & H)]]; [left; intros; lia| |right; exists j; split; [lia|auto]].
  destruct (Req_EM_T (f q) 0) as [E|E]; [|right; exists q; split; [lia|auto]].
  left. intros l Hl. destruct (Nat.eq_dec l q) as [->|]; [auto|apply H; lia].
Defined.
(* hom_system, with the solution computed *)
Lemma hom_solution n : forall m (A : nat -> nat -> R), (n < m)%nat ->
  {x | (exists j, (j < m)%nat /\ x j <> 0) /\ forall t, (t < n)%nat -> bsum m (fun l => A t l * x l) = 0}.
Proof.
  induction n as [|n IH]; intros m A Hm.
  - exists (fun _ => 1). split; [exists 0%nat; split; [lia|apply R1_neq_R0]|]. intros; lia.
  - destruct m as [|m]; [exfalso; lia|]. destruct (first_nonzero (S m) (A n)) as [Z|(j & Hj & Hp)].
    + destruct (IH (S m) A ltac:(lia)) as (x & Hx & HE). exists x. split; [exact Hx|].
      intros t Ht. destruct (Nat.eq_dec t n) as [->|]; [|apply HE; lia]. apply bsum_0. intros l Hl. rewrite Z by auto. ring.
    + set (B := fun t l => A t (swp j m l)).
      assert (Bp : B n m <> 0). { unfold B, swp. destruct (Nat.eqb_spec m j) as [->|]; [exact Hp|]. now rewrite Nat.eqb_refl. }
      destruct (IH m (fun t l => B t l - B t m * (B n l / B n m)) ltac:(lia)) as (y & Hn & HE).
      set (ym := - bsum m (fun l => B n l * y l) / B n m). set (z := fun l => if Nat.eqb l m then ym else y l).
      exists (fun l => z (swp j m l)). destruct Hn as (i & Hi & Hy).
      assert (Hz : forall t, (t < S n)%nat -> bsum (S m) (fun l => B t l * z l) = 0).
      { intros t Ht. cbn [bsum]. unfold z at 2. rewrite Nat.eqb_refl. rewrite (bsum_ext m _ (fun l => B t l * y l)).
        2:{ intros l Hl. unfold z. now rewrite (proj2 (Nat.eqb_neq l m)) by lia. }
        destruct (Nat.eq_dec t n) as [->|]; [unfold ym; field; exact Bp|]. specialize (HE t ltac:(lia)).
        rewrite (bsum_ext m _ (fun l => B t l * y l - (B t m / B n m) * (B n l * y l))) in HE by (intros; field; exact Bp).
        rewrite bsum_minus, bsum_scal_l in HE. unfold ym.
        transitivity (bsum m (fun i0 => B t i0 * y i0) - B t m / B n m * bsum m (fun i0 => B n i0 * y i0)); [field; exact Bp|exact HE]. }
      split.
      * exists (swp j m i). rewrite swp_inv. split; [|unfold z; now rewrite (proj2 (Nat.eqb_neq i m)) by lia].
        unfold swp. destruct (Nat.eqb i j); [lia|]. destruct (Nat.eqb i m); lia.
      * intros t Ht. rewrite <- (Hz t Ht). rewrite <- (bsum_swp m j (fun l => B t l * z l)) by lia.
        apply bsum_ext. intros l Hl. unfold B. now rewrite swp_inv.
Defined.
Definition left_inverse (n : nat) (P A : nat -> nat -> R) : Prop := forall i j, (i < n)%nat -> (j < n)%nat -> bsum n (fun l => P i l * A l j) = dlt i j.
Lemma kernel_no_inverse n A x : (exists j, (j < n)%nat /\ x j <> 0) -> (forall t, (t < n)%nat -> bsum n (fun l => A t l * x l) = 0) -> forall P, ~ left_inverse n P A.
Proof.
  intros (j & Hj & Hx) H P HP. apply Hx. rewrite <- (bsum_dlt' n j x Hj). rewrite (bsum_ext n _ (fun l => bsum n (fun t => P j t * A t l * x l))).
  2:{ intros l Hl. rewrite bsum_scal_r. f_equal. symmetry. apply HP; auto. }
  rewrite bsum_swap. apply bsum_0. intros t Ht. rewrite (bsum_ext n _ (fun l => P j t * (A t l * x l))) by (intros; ring). rewrite bsum_scal_l, H by auto. ring.
Qed.
Lemma find_columns n (A : nat -> nat -> R) c : (c <= n)%nat ->
  {Q | forall i j, (i < n)%nat -> (j < c)%nat -> bsum n (fun l => A i l * Q l j) = dlt i j} + {forall P, ~ left_inverse n P A}.
Proof.
  induction c as [|c IH]; intros Hc; [left; exists (fun _ _ => 0); intros; lia|]. destruct IH as [[Q HQ]|N]; [lia| |right; auto].
  destruct (hom_solution n (S n) (fun t l => if Nat.eqb l n then - dlt t c else A t l) ltac:(lia)) as (x & Hx & HE).
  assert (HE' : forall t, (t < n)%nat -> bsum n (fun l => A t l * x l) = dlt t c * x n).
  { intros t Ht. specialize (HE t Ht). cbn [bsum] in HE. rewrite Nat.eqb_refl in HE. rewrite (bsum_ext n _ (fun l => A t l * x l)) in HE; [lra|]. intros l Hl. now rewrite (proj2 (Nat.eqb_neq l n)) by lia. }
  destruct (Req_EM_T (x n) 0) as [Z|NZ].
  - right. apply kernel_no_inverse with (x := x).
    + destruct Hx as (j & Hj & Hx). exists j. split; auto. destruct (Nat.eq_dec j n) as [->|]; [contradiction|lia].
    + intros t Ht. rewrite HE', Z by auto. ring.
  - left. exists (fun l j => if Nat.eqb j c then x l / x n else Q l j). intros i j Hi Hj. destruct (Nat.eqb_spec j c) as [->|].
    + rewrite (bsum_ext n _ (fun l => (A i l * x l) * / x n)) by (intros; field; auto). rewrite bsum_scal_r, HE' by auto. field; auto.
    + apply HQ; auto; lia.
Defined.
Definition tabm (r c : nat) (f : nat -> nat -> R) : mat := map (fun i => map (f i) (seq 0 c)) (seq 0 r).
Definition solveE (A B : mat) : res mat :=
  match find_columns (nrows A) (mget A) (nrows A) (le_n _) with
  | inleft (exist _ Q _) => Ok (tabm (nrows A) (ncols B) (fun i j => bsum (nrows A) (fun l => Q i l * mget B l j)))
  | inright _ => Err LinAlgError
  end.
Lemma solveE_spec : solve_spec solveE.
Proof.
  intros r c A B X HA HB. unfold solveE. assert (E : nrows A = r) by apply (is_mat_len _ _ _ HA). rewrite !E. destruct (find_columns r (mget A) r (le_n r)) as [[Q HQ]|N]; [|discriminate]. intros [= <-].
  destruct (Nat.eq_dec r 0) as [->|Hr].
  { destruct A; [|discriminate]. pose proof (is_mat_len _ _ _ HB) as LB. destruct B; [|discriminate]. split; [|reflexivity]. split; [reflexivity|constructor]. }
  rewrite (ncols_is_mat r c B HB) by lia. split; [apply is_mat_tab|]. apply (mat_ext r c); auto; [apply (is_mat_matmul r r c); [exact HA|apply is_mat_tab|lia]|].
  intros i j Hi Hj. rewrite (mget_matmul r r c) by solve [exact HA|apply is_mat_tab|lia].
  rewrite (bsum_ext r _ (fun k => bsum r (fun l => mget A i k * Q k l * mget B l j))).
  2:{ intros k Hk. unfold tabm. rewrite mget_tab by auto. rewrite <- bsum_scal_l. apply bsum_ext. intros; ring. }
  rewrite bsum_swap. rewrite (bsum_ext r _ (fun l => dlt i l * mget B l j)) by (intros l Hl; rewrite bsum_scal_r, HQ by auto; reflexivity). apply (bsum_dlt' r i (fun l => mget B l j) Hi).
Qed.
Lemma eye_left r P A : (0 < r)%nat -> is_mat r r P -> is_mat r r A -> matmul P A = eye r -> left_inverse r (mget P) (mget A).
Proof. intros Hr HP HA H i j Hi Hj. rewrite <- (mget_matmul r r r) by auto. rewrite H. now apply mget_eye. Qed.
Lemma solveE_total : solve_total solveE.
Proof.
  intros r c A B P HA HB HP H. unfold solveE. assert (E : nrows A = r) by apply (is_mat_len _ _ _ HA). rewrite !E. destruct (find_columns r (mget A) r (le_n r)) as [[Q HQ]|N]; [eauto|].
  exfalso. apply (N (mget P)). destruct r; [intros i j Hi; lia|]. apply eye_left; auto; lia.
Qed.
(* la.lu_solve(la.lu_factor(A), b) *)
Definition lusolveE (A : mat) (b : arr) : res arr :=
  match find_columns (nrows A) (mget A) (nrows A) (le_n _), b with
  | inleft (exist _ Q _), V b => Ok (V (matvec (tabm (nrows A) (nrows A) Q) b))
  | _, _ => Err LinAlgError
  end.
Lemma lusolveE_ok r A P b : is_mat r r A -> is_mat r r P -> matmul P A = eye r -> is_vec r b -> lusolveE A (V b) = Ok (V (matvec P b)).
Proof.
  intros HA HP H Hb. unfold lusolveE. assert (E : nrows A = r) by apply (is_mat_len _ _ _ HA). rewrite !E. destruct (Nat.eq_dec r 0) as [->|Hr].
  { destruct (find_columns 0 (mget A) 0 (le_n 0)) as [[Q HQ]|N].
    - pose proof (is_mat_len _ _ _ HP). destruct P; [|discriminate]. reflexivity.
    - exfalso. apply (N (mget P)). intros i j Hi; lia. }
  assert (HL : left_inverse r (mget P) (mget A)) by (apply eye_left; auto; lia).
  destruct (find_columns r (mget A) r (le_n r)) as [[Q HQ]|N]; [|exfalso; apply (N (mget P) HL)]. do 3 f_equal.
  apply (mat_ext r r); auto; [apply is_mat_tab|]. intros i j Hi Hj. unfold tabm. rewrite mget_tab by auto.
  (* Q = (P A) Q = P (A Q) = P *)
  rewrite <- (bsum_dlt' r i (fun t => Q t j) Hi). rewrite (bsum_ext r _ (fun t => bsum r (fun l => mget P i l * mget A l t * Q t j))) by (intros t Ht; rewrite bsum_scal_r; f_equal; symmetry; apply HL; auto).
  rewrite bsum_swap. rewrite <- (bsum_dlt r j (fun t => mget P i t) Hj). apply bsum_ext. intros l Hl. rewrite <- (HQ l j Hl Hj). rewrite <- bsum_scal_r. apply bsum_ext. intros; ring.
Qed.

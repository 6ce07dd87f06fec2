(* LinSys.v -- homogeneous linear systems with more unknowns than equations, and one-sided inverses of square
   matrices (everything as functions and finite sums). *)
From Verif Require Export EckartYoung.
#[local] Open Scope R_scope.

(* exchange of the indices j and m *)
Definition swp (j m i : nat) : nat := if Nat.eqb i j then m else if Nat.eqb i m then j else i.
Lemma swp_inv j m i : swp j m (swp j m i) = i.
Proof.
  unfold swp. destruct (Nat.eqb_spec i j) as [->|Hj].
  - destruct (Nat.eqb_spec m j); [auto|]. now rewrite Nat.eqb_refl.
  - destruct (Nat.eqb_spec i m) as [->|Hm]; [now rewrite Nat.eqb_refl|].
    now rewrite (proj2 (Nat.eqb_neq i j) Hj), (proj2 (Nat.eqb_neq i m) Hm).
Qed.
Lemma bsum_pick n j f : (j < n)%nat -> bsum n f = f j + bsum n (fun i => if Nat.eqb i j then 0 else f i).
Proof.
  intros H. rewrite <- (bsum_dlt n j f H) at 1. rewrite <- bsum_plus. apply bsum_ext. intros i Hi. unfold dlt. destruct (Nat.eqb i j); ring.
Qed.
Lemma bsum_swp n j f : (j <= n)%nat -> bsum (S n) (fun i => f (swp j n i)) = bsum (S n) f.
Proof.
  intros H. destruct (Nat.eq_dec j n) as [->|Hn].
  - apply bsum_ext. intros i Hi. f_equal. unfold swp. destruct (Nat.eqb_spec i n); subst; auto.
  - cbn [bsum]. rewrite (bsum_pick n j) by lia. rewrite (bsum_pick n j f) by lia.
    unfold swp at 1. rewrite Nat.eqb_refl. unfold swp at 2. rewrite (proj2 (Nat.eqb_neq n j)) by lia. rewrite Nat.eqb_refl.
    rewrite (bsum_ext n _ (fun i => if Nat.eqb i j then 0 else f i)); [ring|].
    intros i Hi. destruct (Nat.eqb_spec i j); auto. unfold swp. rewrite (proj2 (Nat.eqb_neq i j)), (proj2 (Nat.eqb_neq i n)) by lia. reflexivity.
Qed.

(* n equations in m > n unknowns have a nonzero solution *)
Lemma hom_system n : forall m (A : nat -> nat -> R), (n < m)%nat ->
  exists x, (exists j, (j < m)%nat /\ x j <> 0) /\ forall t, (t < n)%nat -> bsum m (fun l => A t l * x l) = 0.
Proof.
  induction n as [|n IH]; intros m A Hm.
  - exists (fun _ => 1). split; [exists 0%nat; split; [lia|apply R1_neq_R0]|]. intros; lia.
  - destruct m as [|m]; [lia|].
    assert (D : (forall l, (l < S m)%nat -> A n l = 0) \/ exists j, (j < S m)%nat /\ A n j <> 0).
    { clear. induction (S m) as [|q IHq]; [left; intros; lia|].
      destruct IHq as [H|(j & Hj & H)]; [|right; exists j; split; [lia|auto]].
      destruct (Req_EM_T (A n q) 0) as [E|E]; [|right; exists q; split; [lia|auto]].
      left. intros l Hl. destruct (Nat.eq_dec l q) as [->|]; [auto|apply H; lia]. }
    destruct D as [Z|(j & Hj & Hp)].
    + destruct (IH (S m) A ltac:(lia)) as (x & Hx & HE). exists x. split; [exact Hx|].
      intros t Ht. destruct (Nat.eq_dec t n) as [->|]; [|apply HE; lia].
      apply bsum_0. intros l Hl. rewrite Z by auto. ring.
    + (* B: columns j and m exchanged; pivot in column m *)
      set (B := fun t l => A t (swp j m l)).
      assert (Bp : B n m <> 0). { unfold B, swp. destruct (Nat.eqb_spec m j) as [->|]; [exact Hp|]. now rewrite Nat.eqb_refl. }
      destruct (IH m (fun t l => B t l - B t m * (B n l / B n m)) ltac:(lia)) as (y & (i & Hi & Hy) & HE).
      set (ym := - bsum m (fun l => B n l * y l) / B n m).
      set (z := fun l => if Nat.eqb l m then ym else y l).
      assert (Hz : forall t, (t < S n)%nat -> bsum (S m) (fun l => B t l * z l) = 0).
      { intros t Ht. cbn [bsum]. unfold z at 2. rewrite Nat.eqb_refl.
        rewrite (bsum_ext m _ (fun l => B t l * y l)).
        2:{ intros l Hl. unfold z. now rewrite (proj2 (Nat.eqb_neq l m)) by lia. }
        destruct (Nat.eq_dec t n) as [->|]; [unfold ym; field; exact Bp|].
        specialize (HE t ltac:(lia)).
        rewrite (bsum_ext m _ (fun l => B t l * y l - (B t m / B n m) * (B n l * y l))) in HE by (intros; field; exact Bp).
        rewrite bsum_minus, bsum_scal_l in HE. unfold ym.
        transitivity (bsum m (fun i0 => B t i0 * y i0) - B t m / B n m * bsum m (fun i0 => B n i0 * y i0)); [field; exact Bp|exact HE]. }
      exists (fun l => z (swp j m l)). split.
      * exists (swp j m i). rewrite swp_inv. split; [|unfold z; now rewrite (proj2 (Nat.eqb_neq i m)) by lia].
        unfold swp. destruct (Nat.eqb i j); [lia|]. destruct (Nat.eqb i m); lia.
      * intros t Ht. rewrite <- (Hz t Ht). rewrite <- (bsum_swp m j (fun l => B t l * z l)) by lia.
        apply bsum_ext. intros l Hl. unfold B. now rewrite swp_inv.
Qed.

(* a square matrix with a right inverse has trivial kernel, and the right inverse is a left inverse *)
Lemma right_inverse_kernel n A B : (forall i j, (i < n)%nat -> (j < n)%nat -> bsum n (fun l => A i l * B l j) = dlt i j) ->
  forall w, (forall i, (i < n)%nat -> bsum n (fun l => A i l * w l) = 0) -> forall l, (l < n)%nat -> w l = 0.
Proof.
  intros H w Hw.
  destruct (hom_system n (S n) (fun t l => if Nat.eqb l n then w t else B t l) ltac:(lia)) as (c & (j & Hj & Hc) & HE).
  assert (HE' : forall t, (t < n)%nat -> bsum n (fun l => B t l * c l) + w t * c n = 0).
  { intros t Ht. rewrite <- (HE t Ht). cbn [bsum]. rewrite Nat.eqb_refl. f_equal. apply bsum_ext. intros l Hl.
    now rewrite (proj2 (Nat.eqb_neq l n)) by lia. }
  assert (Hc0 : forall i, (i < n)%nat -> c i = 0).
  { intros i Hi.
    assert (E : bsum n (fun t => A i t * (bsum n (fun l => B t l * c l) + w t * c n)) = 0).
    { apply bsum_0. intros t Ht. rewrite HE' by auto. ring. }
    rewrite (bsum_ext n _ (fun t => bsum n (fun l => A i t * B t l * c l) + A i t * w t * c n)) in E.
    2:{ intros t Ht. rewrite Rmult_plus_distr_l, <- bsum_scal_l. f_equal; [apply bsum_ext; intros; ring|ring]. }
    rewrite bsum_plus, bsum_swap, bsum_scal_r, (Hw i Hi) in E.
    rewrite (bsum_ext n _ (fun l => dlt i l * c l)) in E by (intros l Hl; rewrite bsum_scal_r, H by auto; reflexivity).
    rewrite bsum_dlt' in E by auto. lra. }
  assert (Hcn : c n <> 0).
  { destruct (Nat.eq_dec j n) as [->|]; auto. exfalso. apply Hc, Hc0. lia. }
  intros l Hl. specialize (HE' l Hl). rewrite bsum_0 in HE' by (intros i Hi; rewrite Hc0 by auto; ring).
  assert (w l * c n = 0) by lra. apply Rmult_integral in H0. destruct H0; [auto|contradiction].
Qed.
Lemma inverse_comm n A B : (forall i j, (i < n)%nat -> (j < n)%nat -> bsum n (fun l => A i l * B l j) = dlt i j) ->
  forall i j, (i < n)%nat -> (j < n)%nat -> bsum n (fun l => B i l * A l j) = dlt i j.
Proof.
  intros H i j Hi Hj.
  pose proof (right_inverse_kernel n A B H (fun t => bsum n (fun l => B t l * A l j) - dlt t j)) as K. cbv beta in K.
  assert (bsum n (fun l => B i l * A l j) - dlt i j = 0); [|lra]. apply K; auto.
  intros t Ht.
  rewrite (bsum_ext n _ (fun q => bsum n (fun l => A t q * B q l * A l j) - dlt q j * A t q)).
  2:{ intros q Hq. rewrite Rmult_minus_distr_l, <- bsum_scal_l. f_equal; [apply bsum_ext; intros; ring|ring]. }
  rewrite bsum_minus, bsum_swap, bsum_dlt by auto.
  rewrite (bsum_ext n _ (fun l => dlt t l * A l j)) by (intros l Hl; rewrite bsum_scal_r, H by auto; reflexivity).
  rewrite bsum_dlt' by auto. ring.
Qed.

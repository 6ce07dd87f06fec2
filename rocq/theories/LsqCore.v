(* LsqCore.v -- quadratic objectives written as finite sums: expansion, first-order conditions, and the solution
   formulas in a singular value basis. *)
From Verif Require Export EckartYoung.
#[local] Open Scope R_scope.

Definition sq (x : R) : R := x * x.
(* (A x - z)_t for a matrix with d columns *)
Definition resid (d : nat) (A : nat -> nat -> R) (x z : nat -> R) (t : nat) : R := bsum d (fun l => A t l * x l) - z t.
(* |A x - z|^2 *)
Definition lsq (m d : nat) (A : nat -> nat -> R) (z x : nat -> R) : R := bsum m (fun t => sq (resid d A x z t)).
(* A'(A x - z), half the gradient *)
Definition grad (m d : nat) (A : nat -> nat -> R) (z x : nat -> R) (l : nat) : R := bsum m (fun t => A t l * resid d A x z t).
Definition zf (_ : nat) : R := 0.
Definition nrm2 (d : nat) (x : nat -> R) : R := bsum d (fun l => sq (x l)).

Lemma sq_nonneg x : 0 <= sq x. Proof. apply Rle_0_sqr. Qed.
Lemma sq_0 x : sq x = 0 -> x = 0. Proof. apply Rsqr_0_uniq. Qed.
Lemma lsq_nonneg m d A z x : 0 <= lsq m d A z x.
Proof. apply bsum_nonneg. intros. apply sq_nonneg. Qed.
Lemma nrm2_nonneg d x : 0 <= nrm2 d x.
Proof. apply bsum_nonneg. intros. apply sq_nonneg. Qed.
Lemma lsq_ext m d A z x A' z' x' : (forall t l, (t < m)%nat -> (l < d)%nat -> A t l = A' t l) ->
  (forall t, (t < m)%nat -> z t = z' t) -> (forall l, (l < d)%nat -> x l = x' l) -> lsq m d A z x = lsq m d A' z' x'.
Proof.
  intros HA Hz Hx. apply bsum_ext. intros t Ht. unfold resid. rewrite Hz by auto. f_equal. f_equal.
  apply bsum_ext. intros l Hl. now rewrite HA, Hx.
Qed.
Lemma nrm2_ext d x x' : (forall l, (l < d)%nat -> x l = x' l) -> nrm2 d x = nrm2 d x'.
Proof. intros H. apply bsum_ext. intros. now rewrite H. Qed.

Lemma lsq_expand m d A z x y :
  lsq m d A z y = lsq m d A z x + 2 * bsum d (fun l => (y l - x l) * grad m d A z x l) + lsq m d A zf (fun l => y l - x l).
Proof.
  unfold lsq, grad.
  assert (E : bsum d (fun l => (y l - x l) * bsum m (fun t => A t l * resid d A x z t))
            = bsum m (fun t => resid d A (fun l => y l - x l) zf t * resid d A x z t)).
  { transitivity (bsum d (fun l => bsum m (fun t => (y l - x l) * (A t l * resid d A x z t)))).
    - apply bsum_ext. intros. now rewrite bsum_scal_l.
    - rewrite bsum_swap. apply bsum_ext. intros t Ht. unfold resid at 2. unfold zf. rewrite Rminus_0_r, <- bsum_scal_r.
      apply bsum_ext. intros. ring. }
  rewrite E, <- bsum_scal_l, <- !bsum_plus. apply bsum_ext. intros t Ht.
  assert (F : resid d A y z t = resid d A x z t + resid d A (fun l => y l - x l) zf t).
  { unfold resid, zf. rewrite (bsum_ext d (fun l => A t l * (y l - x l)) (fun l => A t l * y l - A t l * x l)) by (intros; ring).
    rewrite bsum_minus. ring. }
  rewrite F. unfold sq. ring.
Qed.

Lemma nrm2_expand d x y : nrm2 d y = nrm2 d x + 2 * bsum d (fun l => (y l - x l) * x l) + nrm2 d (fun l => y l - x l).
Proof. unfold nrm2. rewrite <- bsum_scal_l, <- !bsum_plus. apply bsum_ext. intros. unfold sq. ring. Qed.

(* a zero gradient of |A x - z|^2 + |G x|^2 *)
Lemma normal_min m d A z n G x : (forall l, (l < d)%nat -> grad m d A z x l + grad n d G zf x l = 0) ->
  forall y, lsq m d A z y + lsq n d G zf y
          = lsq m d A z x + lsq n d G zf x + lsq m d A zf (fun l => y l - x l) + lsq n d G zf (fun l => y l - x l).
Proof.
  intros H y. rewrite (lsq_expand m d A z x y), (lsq_expand n d G zf x y).
  assert (E : bsum d (fun l => (y l - x l) * grad m d A z x l) + bsum d (fun l => (y l - x l) * grad n d G zf x l) = 0).
  { rewrite <- bsum_plus. apply bsum_0. intros l Hl. rewrite <- Rmult_plus_distr_l, H by auto. ring. }
  lra.
Qed.
Lemma ridge_min m d A z lam x : (forall l, (l < d)%nat -> grad m d A z x l + lam * lam * x l = 0) ->
  forall y, lsq m d A z y + lam * lam * nrm2 d y
          = lsq m d A z x + lam * lam * nrm2 d x + lsq m d A zf (fun l => y l - x l) + lam * lam * nrm2 d (fun l => y l - x l).
Proof.
  intros H y. rewrite (lsq_expand m d A z x y), (nrm2_expand d x y).
  assert (E : bsum d (fun l => (y l - x l) * grad m d A z x l) + lam * lam * bsum d (fun l => (y l - x l) * x l) = 0).
  { rewrite <- bsum_scal_l, <- bsum_plus. apply bsum_0. intros l Hl.
    transitivity ((y l - x l) * (grad m d A z x l + lam * lam * x l)); [ring|]. rewrite H by auto. ring. }
  lra.
Qed.

(* a minimiser has zero gradient *)
Lemma min_normal m d A z x : (forall y, lsq m d A z x <= lsq m d A z y) -> forall l, (l < d)%nat -> grad m d A z x l = 0.
Proof.
  intros H l Hl.
  set (g := grad m d A z x l). set (c := bsum m (fun t => sq (A t l))).
  assert (Hc : 0 <= c) by (apply bsum_nonneg; intros; apply sq_nonneg).
  set (h := - g / (c + 1)).
  pose proof (H (fun j => x j + h * dlt j l)) as K. rewrite (lsq_expand m d A z x (fun j => x j + h * dlt j l)) in K. cbv beta in K.
  assert (E1 : bsum d (fun j => (x j + h * dlt j l - x j) * grad m d A z x j) = h * g).
  { rewrite (bsum_ext d _ (fun j => dlt j l * (h * grad m d A z x j))) by (intros; ring). now rewrite bsum_dlt. }
  assert (E2 : lsq m d A zf (fun j => x j + h * dlt j l - x j) = h * h * c).
  { unfold lsq, c. rewrite <- bsum_scal_l. apply bsum_ext. intros t Ht. unfold resid, zf.
    rewrite (bsum_ext d _ (fun j => dlt j l * (h * A t j))) by (intros; ring). rewrite bsum_dlt by auto. unfold sq. ring. }
  rewrite E1, E2 in K. unfold h in K.
  assert (K2 : 2 * (- g / (c + 1) * g) + - g / (c + 1) * (- g / (c + 1)) * c = - (g * g) * ((c + 2) / ((c + 1) * (c + 1)))) by (field; lra).
  assert (P : 0 < (c + 2) / ((c + 1) * (c + 1))) by (apply Rdiv_lt_0_compat; nra).
  assert (0 <= g * g) by apply Rle_0_sqr.
  assert (g * g = 0) by nra. now apply Rsqr_0_uniq.
Qed.

(* the solution with coefficients y in the right singular basis: A o = sum s_a y_a phi_a *)
Lemma sve_apply d p phi s psi y t : onf d p psi ->
  bsum d (fun l => sve p phi s psi t l * comb p y psi l) = comb p (fun a => s a * y a) phi t.
Proof.
  intros H. unfold sve.
  transitivity (bsum d (fun l => bsum p (fun a => s a * phi a t * (psi a l * comb p y psi l)))).
  - apply bsum_ext. intros. rewrite <- bsum_scal_r. apply bsum_ext. intros. ring.
  - rewrite bsum_swap. apply bsum_ext. intros a Ha. rewrite bsum_scal_l.
    change (bsum d (fun l => psi a l * comb p y psi l)) with (ip d (psi a) (comb p y psi)).
    rewrite ip_comm, ip_comb_on by auto. ring.
Qed.
Lemma sve_adj k p phi s psi v l :
  bsum k (fun t => sve p phi s psi t l * v t) = comb p (fun a => s a * ip k (phi a) v) psi l.
Proof.
  unfold sve, comb.
  transitivity (bsum k (fun t => bsum p (fun a => s a * psi a l * (phi a t * v t)))).
  - apply bsum_ext. intros. rewrite <- bsum_scal_r. apply bsum_ext. intros. ring.
  - rewrite bsum_swap. apply bsum_ext. intros a Ha. rewrite bsum_scal_l. unfold ip. ring.
Qed.
Lemma sve_grad k d p phi s psi z y l : onf k p phi -> onf d p psi ->
  grad k d (sve p phi s psi) z (comb p y psi) l = comb p (fun a => s a * (s a * y a - ip k (phi a) z)) psi l.
Proof.
  intros Hp Hs. unfold grad. rewrite sve_adj. unfold comb. apply bsum_ext. intros a Ha. f_equal. f_equal.
  transitivity (ip k (fun t => comb p (fun a => s a * y a) phi t - z t) (phi a)).
  - rewrite ip_comm. apply ip_ext; [|reflexivity]. intros t Ht. unfold resid. f_equal. exact (sve_apply d p phi s psi y t Hs).
  - rewrite ip_sub_l, ip_comb_on, (ip_comm k z) by auto. reflexivity.
Qed.

(* n orthonormal functions on n points: the transposed family is orthonormal too *)
Lemma onf_square n q : onf n n q -> forall t u, (t < n)%nat -> (u < n)%nat -> bsum n (fun j => q j t * q j u) = dlt t u.
Proof.
  intros H.
  assert (B : forall t, (t < n)%nat -> bsum n (fun j => q j t * q j t) = 1).
  { assert (E1 : bsum n (fun t => 1 - bsum n (fun j => q j t * q j t)) = 0).
    { rewrite bsum_minus, bsum_swap, bsum_const.
      rewrite (bsum_ext n (fun j => bsum n (fun i => q j i * q j i)) (fun _ => 1)).
      - rewrite bsum_const. ring.
      - intros j Hj. exact (eq_trans (H j j Hj Hj) (dlt_same j)). }
    intros t Ht. pose proof (bsum_nonneg_0 n (fun t => 1 - bsum n (fun j => q j t * q j t))) as N. cbv beta in N.
    assert (1 - bsum n (fun j => q j t * q j t) = 0); [|lra]. apply N; auto.
    intros i Hi. pose proof (bessel n n q (dlt i) H) as Be.
    assert (ip n (dlt i) (dlt i) = 1). { unfold ip. rewrite bsum_dlt' by auto. apply dlt_same. }
    rewrite H0 in Be.
    rewrite (bsum_ext n (fun j => ip n (q j) (dlt i) * ip n (q j) (dlt i)) (fun j => q j i * q j i)) in Be; [lra|].
    intros j Hj. unfold ip. rewrite (bsum_ext n _ (fun t => dlt i t * q j t)) by (intros; ring). now rewrite bsum_dlt'. }
  intros t u Ht Hu.
  pose proof (residual_lower n n q (dlt t) (fun j => ip n (q j) (dlt t)) H) as E. cbv beta in E.
  rewrite (bsum_0 n (fun j => (ip n (q j) (dlt t) - ip n (q j) (dlt t)) * (ip n (q j) (dlt t) - ip n (q j) (dlt t)))) in E by (intros; ring).
  assert (P : forall j, ip n (q j) (dlt t) = q j t).
  { intros j. unfold ip. rewrite (bsum_ext n _ (fun i => dlt t i * q j i)) by (intros; ring). now rewrite bsum_dlt'. }
  assert (ip n (dlt t) (dlt t) = 1) by (unfold ip; rewrite bsum_dlt' by auto; apply dlt_same).
  rewrite H0 in E. rewrite (bsum_ext n (fun j => ip n (q j) (dlt t) * ip n (q j) (dlt t)) (fun j => q j t * q j t)) in E by (intros; now rewrite P).
  rewrite B in E by auto.
  unfold ip at 1 in E. replace (1 - 1 + 0) with 0 in E by ring.
  apply (bsum_nonneg_0 n _) with (i := u) in E; auto; [|intros; apply Rle_0_sqr].
  apply Rsqr_0_uniq in E. unfold comb in E.
  rewrite (bsum_ext n (fun j => ip n (q j) (dlt t) * q j u) (fun j => q j t * q j u)) in E by (intros; now rewrite P). lra.
Qed.

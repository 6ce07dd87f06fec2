(* PostNorm.v -- powers with real exponents, their convexity, and Minkowski's inequality for positive functionals. *)
From Verif Require Export LinAlg SpecPost.
#[local] Open Scope R_scope.

Lemma rpow_0 p : rpow 0 p = 0.
Proof. unfold rpow. destruct (Req_EM_T 0 0); [reflexivity|congruence]. Qed.
Lemma rpow_pos x p : x <> 0 -> rpow x p = Rpower x p.
Proof. intros H. unfold rpow. destruct (Req_EM_T x 0); [congruence|reflexivity]. Qed.
Lemma rpow_gt0 x p : x <> 0 -> 0 < rpow x p.
Proof. intros H. rewrite rpow_pos by auto. unfold Rpower. apply exp_pos. Qed.
Lemma rpow_ge0 x p : 0 <= rpow x p.
Proof. destruct (Req_EM_T x 0) as [->|H]; [rewrite rpow_0; lra|]. pose proof (rpow_gt0 x p H). lra. Qed.
Lemma rpow_eq0 x p : rpow x p = 0 -> x = 0.
Proof. intros E. destruct (Req_EM_T x 0) as [|H]; auto. pose proof (rpow_gt0 x p H). lra. Qed.
Lemma rpow_1 x : 0 <= x -> rpow x 1 = x.
Proof. intros H. destruct (Req_EM_T x 0) as [->|N]; [apply rpow_0|]. rewrite rpow_pos by auto. apply Rpower_1. lra. Qed.
Lemma rpow_1l p : rpow 1 p = 1.
Proof. rewrite rpow_pos by lra. unfold Rpower. rewrite ln_1, Rmult_0_r. apply exp_0. Qed.
Lemma rpow_2 x : 0 <= x -> rpow x 2 = x * x.
Proof.
  intros H. destruct (Req_EM_T x 0) as [->|N]; [rewrite rpow_0; ring|]. rewrite rpow_pos by auto.
  replace 2 with (1 + 1) by ring. rewrite Rpower_plus, Rpower_1 by lra. reflexivity.
Qed.
Lemma rpow_mult x y p : 0 <= x -> 0 <= y -> rpow (x * y) p = rpow x p * rpow y p.
Proof.
  intros Hx Hy. destruct (Req_EM_T x 0) as [->|Nx]; [rewrite Rmult_0_l, rpow_0; ring|].
  destruct (Req_EM_T y 0) as [->|Ny]; [rewrite Rmult_0_r, rpow_0; ring|].
  rewrite !rpow_pos by (auto; nra). symmetry. apply Rpower_mult_distr; lra.
Qed.
Lemma rpow_rpow x p q : rpow (rpow x p) q = rpow x (p * q).
Proof.
  destruct (Req_EM_T x 0) as [->|N]; [now rewrite !rpow_0|].
  rewrite (rpow_pos (rpow x p)) by (pose proof (rpow_gt0 x p N); lra). rewrite !rpow_pos by auto. apply Rpower_mult.
Qed.
Lemma rpow_root x p : 0 <= x -> p <> 0 -> rpow (rpow x p) (1 / p) = x.
Proof. intros H Hp. rewrite rpow_rpow. replace (p * (1 / p)) with 1 by (field; auto). now apply rpow_1. Qed.
Lemma rpow_root' x p : 0 <= x -> p <> 0 -> rpow (rpow x (1 / p)) p = x.
Proof. intros H Hp. rewrite rpow_rpow. replace (1 / p * p) with 1 by (field; auto). now apply rpow_1. Qed.
Lemma rpow_le x y p : 0 < p -> 0 <= x -> x <= y -> rpow x p <= rpow y p.
Proof.
  intros Hp Hx L. destruct (Req_EM_T x 0) as [->|Nx]; [rewrite rpow_0; apply rpow_ge0|]. rewrite !rpow_pos by lra.
  apply Rle_Rpower_l; lra.
Qed.
Lemma rpow_lt x y p : 0 < p -> 0 <= x -> x < y -> rpow x p < rpow y p.
Proof.
  intros Hp Hx L. destruct (Req_EM_T x 0) as [->|Nx]; [rewrite rpow_0; apply rpow_gt0; lra|]. rewrite !rpow_pos by lra.
  unfold Rpower. apply exp_increasing. apply Rmult_lt_compat_l; auto. apply ln_increasing; lra.
Qed.
Lemma rpow_le_inv x y p : 0 < p -> 0 <= y -> rpow x p <= rpow y p -> x <= y.
Proof. intros Hp Hy L. destruct (Rle_lt_dec x y) as [|K]; auto. pose proof (rpow_lt y x p Hp Hy K). lra. Qed.
Lemma rpow_inj x y p : 0 < p -> 0 <= x -> 0 <= y -> rpow x p = rpow y p -> x = y.
Proof. intros Hp Hx Hy E. apply Rle_antisym; apply (rpow_le_inv _ _ p); auto; lra. Qed.

(* (1/q) s + (1 - 1/q) 0 under exp *)
Lemma exp_convex0 th s : 0 <= th <= 1 -> exp (th * s) <= th * exp s + (1 - th).
Proof.
  intros Hth. set (m := th * s).
  assert (A : exp m * (1 + (s - m)) <= exp s).
  { replace s with (m + (s - m)) at 2 by ring. rewrite exp_plus. apply Rmult_le_compat_l; [left; apply exp_pos|]. apply exp_ineq1_le. }
  assert (B : exp m * (1 + (0 - m)) <= 1).
  { rewrite <- exp_0 at 2. replace 0 with (m + (0 - m)) at 2 by ring. rewrite exp_plus. apply Rmult_le_compat_l; [left; apply exp_pos|]. apply exp_ineq1_le. }
  assert (C : th * (exp m * (1 + (s - m))) + (1 - th) * (exp m * (1 + (0 - m))) = exp m) by (unfold m; ring).
  nra.
Qed.
(* Bernoulli *)
Lemma bernoulli u p : 1 <= p -> 0 <= u -> 1 + p * (u - 1) <= rpow u p.
Proof.
  intros Hp Hu. destruct (Rle_lt_dec (1 + p * (u - 1)) 0) as [L|L]; [pose proof (rpow_ge0 u p); lra|].
  set (v := 1 + p * (u - 1)) in *.
  assert (E : u = 1 / p * v + (1 - 1 / p)) by (unfold v; field; lra).
  assert (T : 0 <= 1 / p <= 1).
  { split; [apply Rmult_le_pos; [lra|]; left; apply Rinv_0_lt_compat; lra|]. apply Rmult_le_reg_r with p; [lra|]. field_simplify; lra. }
  pose proof (exp_convex0 (1 / p) (ln v) T) as K. rewrite exp_ln in K by auto. rewrite <- E in K.
  assert (Hu' : 0 < u) by (pose proof (exp_pos (1 / p * ln v)); lra).
  assert (W : rpow (exp (1 / p * ln v)) p <= rpow u p) by (apply rpow_le; [lra|left; apply exp_pos|auto]).
  rewrite rpow_pos in W by (pose proof (exp_pos (1 / p * ln v)); lra). unfold Rpower in W. rewrite ln_exp in W.
  replace (p * (1 / p * ln v)) with (ln v) in W by (field; lra). now rewrite exp_ln in W.
Qed.
(* the tangent at m *)
Lemma rpow_tangent m x p : 1 <= p -> 0 < m -> 0 <= x -> rpow m p * (1 + p * (x / m - 1)) <= rpow x p.
Proof.
  intros Hp Hm Hx. replace x with (m * (x / m)) at 2 by (field; lra).
  assert (0 <= x / m) by (apply Rmult_le_pos; [auto|left; now apply Rinv_0_lt_compat]).
  rewrite rpow_mult by lra. apply Rmult_le_compat_l; [apply rpow_ge0|]. now apply bernoulli.
Qed.
Lemma rpow_convex th x y p : 1 <= p -> 0 <= th <= 1 -> 0 <= x -> 0 <= y ->
  rpow (th * x + (1 - th) * y) p <= th * rpow x p + (1 - th) * rpow y p.
Proof.
  intros Hp Hth Hx Hy. set (m := th * x + (1 - th) * y).
  assert (Hm : 0 <= m) by (unfold m; nra).
  destruct (Req_EM_T m 0) as [Em|Nm].
  - rewrite Em, rpow_0. pose proof (rpow_ge0 x p). pose proof (rpow_ge0 y p). nra.
  - pose proof (rpow_tangent m x p Hp ltac:(lra) Hx) as A. pose proof (rpow_tangent m y p Hp ltac:(lra) Hy) as B.
    assert (C : th * (rpow m p * (1 + p * (x / m - 1))) + (1 - th) * (rpow m p * (1 + p * (y / m - 1))) = rpow m p).
    { transitivity (rpow m p * (1 + p * ((th * x + (1 - th) * y) / m - 1))); [field; lra|]. fold m. field. lra. }
    nra.
Qed.

(* positive functionals *)
Record positive_functional {I : Type} (D : I -> Prop) (L : (I -> R) -> R) : Prop := {
  pf_le : forall f g, (forall i, D i -> f i <= g i) -> L f <= L g;
  pf_lin : forall a b f g, L (fun i => a * f i + b * g i) = a * L f + b * L g }.
Lemma pf_ext {I} (D : I -> Prop) (L : (I -> R) -> R) f g : positive_functional D L -> (forall i, D i -> f i = g i) -> L f = L g.
Proof. intros H E. apply Rle_antisym; apply (pf_le D L H); intros i Hi; rewrite E by auto; lra. Qed.
Lemma pf_nonneg {I} (D : I -> Prop) (L : (I -> R) -> R) f : positive_functional D L -> (forall i, D i -> 0 <= f i) -> 0 <= L f.
Proof.
  intros H E. assert (Z : L (fun _ => 0) = 0).
  { rewrite (pf_ext D L (fun _ => 0) (fun i => 0 * f i + 0 * f i) H) by (intros; ring). rewrite (pf_lin D L H). ring. }
  rewrite <- Z. apply (pf_le D L H). auto.
Qed.
Lemma pf_scal {I} (D : I -> Prop) (L : (I -> R) -> R) c f : positive_functional D L -> L (fun i => c * f i) = c * L f.
Proof. intros H. rewrite (pf_ext D L _ (fun i => c * f i + 0 * f i) H) by (intros; ring). rewrite (pf_lin D L H). ring. Qed.

(* sizes below a and b give a sum below a + b *)
Lemma minkowski_aux {I} (D : I -> Prop) (L : (I -> R) -> R) p (f g h : I -> R) a b : positive_functional D L -> 1 <= p -> 0 < a -> 0 < b ->
  (forall i, D i -> Rabs (h i) <= Rabs (f i) + Rabs (g i)) ->
  L (fun i => rpow (Rabs (f i)) p) <= rpow a p -> L (fun i => rpow (Rabs (g i)) p) <= rpow b p ->
  L (fun i => rpow (Rabs (h i)) p) <= rpow (a + b) p.
Proof.
  intros HL Hp Ha Hb Hh Hf Hg. set (th := a / (a + b)).
  assert (Hth : 0 <= th <= 1).
  { unfold th. split; [apply Rmult_le_pos; [lra|left; apply Rinv_0_lt_compat; lra]|]. apply Rmult_le_reg_r with (a + b); [lra|]. field_simplify; lra. }
  set (ca := rpow (a + b) p * th * / rpow a p). set (cb := rpow (a + b) p * (1 - th) * / rpow b p).
  assert (Pa : 0 < rpow a p) by (apply rpow_gt0; lra). assert (Pb : 0 < rpow b p) by (apply rpow_gt0; lra).
  pose proof (rpow_ge0 (a + b) p) as Ps.
  assert (Ia : 0 < / rpow a p) by (now apply Rinv_0_lt_compat). assert (Ib : 0 < / rpow b p) by (now apply Rinv_0_lt_compat).
  assert (Hca : 0 <= ca) by (unfold ca; apply Rmult_le_pos; [apply Rmult_le_pos; lra|lra]).
  assert (Hcb : 0 <= cb) by (unfold cb; apply Rmult_le_pos; [apply Rmult_le_pos; lra|lra]).
  apply Rle_trans with (L (fun i => ca * rpow (Rabs (f i)) p + cb * rpow (Rabs (g i)) p)).
  - apply (pf_le D L HL). intros i Hi. pose proof (Rabs_pos (f i)) as Af. pose proof (Rabs_pos (g i)) as Ag. pose proof (Rabs_pos (h i)) as Ah.
    apply Rle_trans with (rpow (Rabs (f i) + Rabs (g i)) p); [apply rpow_le; [lra|auto|auto]|].
    assert (E : Rabs (f i) + Rabs (g i) = (a + b) * (th * (Rabs (f i) / a) + (1 - th) * (Rabs (g i) / b))) by (unfold th; field; lra).
    assert (Fa : 0 <= Rabs (f i) / a) by (apply Rmult_le_pos; [auto|left; now apply Rinv_0_lt_compat]).
    assert (Fb : 0 <= Rabs (g i) / b) by (apply Rmult_le_pos; [auto|left; now apply Rinv_0_lt_compat]).
    rewrite E. rewrite rpow_mult; [|lra|nra].
    pose proof (rpow_convex th (Rabs (f i) / a) (Rabs (g i) / b) p Hp Hth Fa Fb) as C.
    assert (Da : rpow (Rabs (f i) / a) p = rpow (Rabs (f i)) p * / rpow a p).
    { apply Rmult_eq_reg_r with (rpow a p); [|lra]. rewrite <- rpow_mult by lra. rewrite Rmult_assoc, Rinv_l by lra.
      rewrite Rmult_1_r. f_equal. field. lra. }
    assert (Db : rpow (Rabs (g i) / b) p = rpow (Rabs (g i)) p * / rpow b p).
    { apply Rmult_eq_reg_r with (rpow b p); [|lra]. rewrite <- rpow_mult by lra. rewrite Rmult_assoc, Rinv_l by lra.
      rewrite Rmult_1_r. f_equal. field. lra. }
    rewrite Da, Db in C. apply Rmult_le_compat_l with (r := rpow (a + b) p) in C; auto. unfold ca, cb. lra.
  - rewrite (pf_lin D L HL). apply Rle_trans with (ca * rpow a p + cb * rpow b p).
    + apply Rplus_le_compat; apply Rmult_le_compat_l; auto.
    + unfold ca, cb. right. transitivity (rpow (a + b) p * th + rpow (a + b) p * (1 - th)); [field; lra|ring].
Qed.
(* Minkowski's inequality *)
Lemma minkowski {I} (D : I -> Prop) (L : (I -> R) -> R) p (f g h : I -> R) a b c : positive_functional D L -> 1 <= p -> 0 <= a -> 0 <= b -> 0 <= c ->
  (forall i, D i -> Rabs (h i) <= Rabs (f i) + Rabs (g i)) ->
  rpow a p = L (fun i => rpow (Rabs (f i)) p) -> rpow b p = L (fun i => rpow (Rabs (g i)) p) -> rpow c p = L (fun i => rpow (Rabs (h i)) p) ->
  c <= a + b.
Proof.
  intros HL Hp Ha Hb Hc Hh Ea Eb Ec. apply Rnot_lt_le. intros K. set (e := (c - (a + b)) / 4). assert (He : 0 < e) by (unfold e; lra).
  assert (W : L (fun i => rpow (Rabs (h i)) p) <= rpow ((a + e) + (b + e)) p).
  { apply (minkowski_aux D L p f g h); auto; try lra.
    - rewrite <- Ea. apply rpow_le; lra.
    - rewrite <- Eb. apply rpow_le; lra. }
  rewrite <- Ec in W. apply rpow_le_inv in W; [unfold e in W; lra|lra|lra].
Qed.

(* the norm of order p built from a functional on D *)
Definition gnorm {I} (p : order) (D : I -> Prop) (L : (I -> R) -> R) (f : I -> R) (x : R) : Prop :=
  0 <= x /\
  match p with
  | Fin p => rpow x p = L (fun i => rpow (Rabs (f i)) p)
  | Inf => (forall i, D i -> Rabs (f i) <= x) /\ exists i, D i /\ Rabs (f i) = x
  | _ => False
  end.
Definition definite {I} (D : I -> Prop) (L : (I -> R) -> R) : Prop :=
  forall f, (forall i, D i -> 0 <= f i) -> L f = 0 -> forall i, D i -> f i = 0.

Section G.
Context {I : Type} (p : order) (D : I -> Prop) (L : (I -> R) -> R).
Hypothesis HL : positive_functional D L.
Hypothesis Hp : pos_order p.

Lemma gnorm_abs f g x : (forall i, D i -> Rabs (f i) = Rabs (g i)) -> gnorm p D L f x -> gnorm p D L g x.
Proof.
  clear Hp. intros E (H0 & H). split; auto. destruct p as [q| | |]; auto.
  - rewrite H. apply (pf_ext D L _ _ HL). intros i Hi. now rewrite E.
  - destruct H as (H1 & i & Hi & H2). split; [intros j Hj; rewrite <- E by auto; auto|]. exists i. split; auto. rewrite <- E; auto.
Qed.
Lemma gnorm_unique f x y : gnorm p D L f x -> gnorm p D L f y -> x = y.
Proof.
  intros (H0 & H) (K0 & K). destruct p as [q| | |]; try contradiction.
  - apply (rpow_inj x y q); auto. congruence.
  - destruct H as (H1 & i & Hi & H2). destruct K as (K1 & j & Hj & K2). subst. apply Rle_antisym; auto.
Qed.
Lemma gnorm_zero f x : definite D L -> gnorm p D L f x -> (x = 0 <-> forall i, D i -> f i = 0).
Proof.
  intros HD (H0 & H). destruct p as [q| | |]; try contradiction.
  - split.
    + intros ->. rewrite rpow_0 in H. intros i Hi. symmetry in H.
      pose proof (HD _ (fun i _ => rpow_ge0 (Rabs (f i)) q) H i Hi) as E. cbv beta in E. apply rpow_eq0 in E.
      destruct (Req_dec (f i) 0) as [|N]; auto. apply Rabs_no_R0 in N. congruence.
    + intros E. apply (rpow_eq0 x q). rewrite H.
      rewrite (pf_ext D L _ (fun i => 0 * rpow (Rabs (f i)) q) HL); [rewrite (pf_scal D L) by auto; ring|].
      intros i Hi. rewrite E by auto. rewrite Rabs_R0, rpow_0. ring.
  - destruct H as (H1 & i & Hi & H2). split.
    + intros -> j Hj. specialize (H1 j Hj). pose proof (Rabs_pos (f j)). destruct (Req_dec (f j) 0) as [|N]; auto. apply Rabs_pos_lt in N. lra.
    + intros E. rewrite <- H2, E by auto. apply Rabs_R0.
Qed.
Lemma gnorm_scal c f x : gnorm p D L f x -> gnorm p D L (fun i => c * f i) (Rabs c * x).
Proof.
  intros (H0 & H). split; [apply Rmult_le_pos; auto using Rabs_pos|]. destruct p as [q| | |]; auto.
  - rewrite rpow_mult by auto using Rabs_pos. rewrite H. rewrite <- (pf_scal D L) by auto. apply (pf_ext D L _ _ HL). intros i Hi.
    rewrite Rabs_mult. symmetry. apply rpow_mult; apply Rabs_pos.
  - destruct H as (H1 & i & Hi & H2). split.
    + intros j Hj. rewrite Rabs_mult. apply Rmult_le_compat_l; auto using Rabs_pos.
    + exists i. split; auto. rewrite Rabs_mult. congruence.
Qed.
Lemma gnorm_triangle f g h x y z : at_least_one p -> (forall i, D i -> Rabs (h i) <= Rabs (f i) + Rabs (g i)) ->
  gnorm p D L f x -> gnorm p D L g y -> gnorm p D L h z -> z <= x + y.
Proof.
  intros H1 E (F0 & F) (G0 & G) (K0 & K). destruct p as [q| | |]; try contradiction.
  - apply (minkowski D L q f g h); auto.
  - destruct F as (F1 & _), G as (G1 & _), K as (_ & i & Hi & <-). specialize (E i Hi). specialize (F1 i Hi). specialize (G1 i Hi). lra.
Qed.
End G.

(* the functionals of the two error measures *)
Lemma pf_bsum n : positive_functional (fun i => (i < n)%nat) (bsum n).
Proof.
  split.
  - intros. now apply bsum_le.
  - intros. rewrite bsum_plus, !bsum_scal_l. reflexivity.
Qed.
Lemma def_bsum n : definite (fun i => (i < n)%nat) (bsum n).
Proof. intros f H E. now apply bsum_nonneg_0. Qed.
Lemma pnorm_gnorm p n f x : is_pnorm p n f x <-> gnorm p (fun i => (i < n)%nat) (bsum n) f x.
Proof. reflexivity. Qed.

Definition grid (n k : nat) (ij : nat * nat) : Prop := (fst ij < n)%nat /\ (snd ij < k)%nat.
Definition Ltrap (n k : nat) (t : nat -> R) (f : nat * nat -> R) : R := trapz k t (fun j => bsum n (fun i => f (i, j))).
Lemma pf_trap n k t : (forall j, (S j < k)%nat -> t j <= t (S j)) -> positive_functional (grid n k) (Ltrap n k t).
Proof.
  intros Ht. unfold Ltrap, trapz. split.
  - intros f g H. apply bsum_le. intros j Hj. apply Rmult_le_compat_l; [specialize (Ht j); assert (S j < k)%nat by lia; specialize (Ht H0); lra|].
    assert (bsum n (fun i => f (i, j)) <= bsum n (fun i => g (i, j))) by (apply bsum_le; intros; apply H; split; cbn; lia).
    assert (bsum n (fun i => f (i, S j)) <= bsum n (fun i => g (i, S j))) by (apply bsum_le; intros; apply H; split; cbn; lia). lra.
  - intros a b f g. rewrite <- !bsum_scal_l, <- bsum_plus. apply bsum_ext. intros j Hj. rewrite !bsum_plus, !bsum_scal_l. field.
Qed.
Lemma def_trap n k t : (2 <= k)%nat -> (forall j, (S j < k)%nat -> t j < t (S j)) -> definite (grid n k) (Ltrap n k t).
Proof.
  intros Hk Ht f H E. unfold Ltrap, trapz in E.
  assert (P : forall j, (j < k)%nat -> 0 <= bsum n (fun i => f (i, j))) by (intros; apply bsum_nonneg; intros; apply H; split; cbn; lia).
  assert (Z : forall j, (j < k - 1)%nat -> bsum n (fun i => f (i, j)) = 0 /\ bsum n (fun i => f (i, S j)) = 0).
  { intros j Hj. assert (W : (t (S j) - t j) * ((bsum n (fun i => f (i, j)) + bsum n (fun i => f (i, S j))) / 2) = 0).
    { apply (bsum_nonneg_0 (k - 1) (fun j => (t (S j) - t j) * ((bsum n (fun i => f (i, j)) + bsum n (fun i => f (i, S j))) / 2))); auto. intros l Hl.
      apply Rmult_le_pos; [specialize (Ht l); assert (S l < k)%nat by lia; specialize (Ht H0); lra|].
      pose proof (P l ltac:(lia)). pose proof (P (S l) ltac:(lia)). lra. }
    specialize (Ht j ltac:(lia)). apply Rmult_integral in W. pose proof (P j ltac:(lia)). pose proof (P (S j) ltac:(lia)). lra. }
  intros [i j] [Hi Hj]. cbn in Hi, Hj.
  assert (W : bsum n (fun i => f (i, j)) = 0).
  { destruct (Nat.eq_dec j (k - 1)) as [->|N].
    - destruct (Z (k - 2)%nat ltac:(lia)) as [_ Z2]. replace (S (k - 2)) with (k - 1)%nat in Z2 by lia. exact Z2.
    - apply (Z j). lia. }
  apply (bsum_nonneg_0 n (fun i => f (i, j))); auto. intros l Hl. apply H. split; cbn; lia.
Qed.
Lemma Lpnorm_gnorm p n k t f x : is_Lpnorm p n k t f x <-> gnorm p (grid n k) (Ltrap n k t) (fun ij => f (fst ij) (snd ij)) x.
Proof.
  unfold is_Lpnorm, gnorm, Ltrap, grid. destruct p as [p| | |]; cbn [fst snd]; try tauto.
  split; intros (H0 & H1 & H2); (split; [auto|split]).
  - intros [i j] [Hi Hj]. auto.
  - destruct H2 as (i & j & Hi & Hj & E). exists (i, j). auto.
  - intros i j Hi Hj. apply (H1 (i, j)). auto.
  - destruct H2 as ([i j] & [Hi Hj] & E). exists i, j. auto.
Qed.

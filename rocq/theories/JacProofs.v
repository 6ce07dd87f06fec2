(* JacProofs.v -- the Jacobians of OpsModel.v are the derivatives of apply *)
From Verif Require Import LinAlg MatAlg SpecOps TupleLemmas TupleProofs TupleFinal.
From Verif Require Export OpsProofs.
#[local] Open Scope nat_scope.

Lemma bsum_mul r n f : bsum (r * n) f = bsum r (fun a => bsum n (fun b => f (a * n + b))).
Proof. induction r as [|r IH]; [reflexivity|]. replace (S r * n) with (r * n + n) by lia.
  rewrite bsum_split, IH. reflexivity. Qed.

Lemma kron_power_S p q : kron_power (S p) q = kronv q (kron_power p q).
Proof. cbn [kron_power]. unfold kronv, vscale. rewrite flat_map_concat_map. reflexivity. Qed.
Lemma kron_power_length p q : length (kron_power p q) = length q ^ p.
Proof. induction p; [reflexivity|]. rewrite kron_power_S, kronv_length, IHp. reflexivity. Qed.
Lemma vget_kron_power p q a b : b < length q ^ p ->
  vget (kron_power (S p) q) (a * length q ^ p + b) = (vget q a * vget (kron_power p q) b)%R.
Proof. intros H. rewrite kron_power_S, <- (kron_power_length p q). apply vget_kronv. rewrite kron_power_length; auto. Qed.

Lemma dot_kron_power p r q (g : nat -> R) : is_vec r q ->
  bsum (r ^ S p) (fun x => g x * vget (kron_power (S p) q) x)%R =
  bsum r (fun a => vget q a * bsum (r ^ p) (fun b => g (a * r ^ p + b)%nat * vget (kron_power p q) b))%R.
Proof. intros Hq. cbn [Nat.pow]. rewrite bsum_mul. apply bsum_ext. intros a Ha.
  rewrite <- bsum_scal_l. apply bsum_ext. intros b Hb. pose proof (vget_kron_power p q a b) as K. rewrite Hq in K.
  rewrite K by auto. ring. Qed.

Lemma kp0 (g : nat -> R) q : bsum 1 (fun x => g x * vget (kron_power 0 q) x)%R = g 0.
Proof. cbn. unfold vget. cbn. ring. Qed.

Lemma kp1 r q (g : nat -> R) : is_vec r q ->
  bsum (r ^ 1) (fun x => g x * vget (kron_power 1 q) x)%R = bsum r (fun a => g a * vget q a)%R.
Proof. intros Hq. rewrite (dot_kron_power 0) by auto. apply bsum_ext. intros a Ha. cbn [Nat.pow]. rewrite kp0.
  replace (a * 1 + 0) with a by lia. ring. Qed.
Lemma kp2 r q (g : nat -> R) : is_vec r q ->
  bsum (r ^ 2) (fun x => g x * vget (kron_power 2 q) x)%R =
  bsum r (fun a => bsum r (fun b => g (a * r + b)%nat * (vget q a * vget q b)))%R.
Proof. intros Hq. rewrite (dot_kron_power 1) by auto. apply bsum_ext. intros a Ha. rewrite kp1 by auto.
  rewrite <- bsum_scal_l. apply bsum_ext. intros b Hb. replace (r ^ 1) with r by (simpl; lia). ring. Qed.
Lemma kp3 r q (g : nat -> R) : is_vec r q ->
  bsum (r ^ 3) (fun x => g x * vget (kron_power 3 q) x)%R =
  bsum r (fun a => bsum r (fun b => bsum r (fun c => g (a * r ^ 2 + b * r + c)%nat * (vget q a * vget q b * vget q c))))%R.
Proof. intros Hq. rewrite (dot_kron_power 2) by auto. apply bsum_ext. intros a Ha. rewrite kp2 by auto.
  rewrite <- bsum_scal_l. apply bsum_ext. intros b Hb. rewrite <- bsum_scal_l. apply bsum_ext. intros c Hc.
  rewrite Nat.add_assoc. ring. Qed.
Lemma kp4 r q (g : nat -> R) : is_vec r q ->
  bsum (r ^ 4) (fun x => g x * vget (kron_power 4 q) x)%R =
  bsum r (fun a => bsum r (fun b => bsum r (fun c => bsum r (fun d =>
    g (a * r ^ 3 + b * r ^ 2 + c * r + d)%nat * (vget q a * vget q b * vget q c * vget q d)))))%R.
Proof. intros Hq. rewrite (dot_kron_power 3) by auto. apply bsum_ext. intros a Ha. rewrite kp3 by auto.
  rewrite <- bsum_scal_l. apply bsum_ext. intros b Hb. rewrite <- bsum_scal_l. apply bsum_ext. intros c Hc.
  rewrite <- bsum_scal_l. apply bsum_ext. intros d Hd. rewrite !Nat.add_assoc. ring. Qed.

(* ---- derivatives -------------------------------------------------------------------------------- *)
Lemma deriv_bsum n (f : nat -> R -> R) (l : nat -> R) x :
  (forall i, i < n -> derivable_pt_lim (f i) x (l i)) ->
  derivable_pt_lim (fun t => bsum n (fun i => f i t)) x (bsum n l).
Proof. induction n as [|n IH]; intros H; cbn [bsum].
  - apply derivable_pt_lim_const.
  - apply (derivable_pt_lim_plus (fun t => bsum n (fun i => f i t)) (f n)); auto. Qed.

Lemma deriv_lin a b : derivable_pt_lim (fun t => a + t * b)%R 0 b.
Proof. assert (K : derivable_pt_lim (fun t => a + t * b)%R 0 (0 + (1 * b + 0 * 0))%R).
  { apply (derivable_pt_lim_plus (fun _ => a) (fun t => t * b)%R); [apply derivable_pt_lim_const|].
    apply (derivable_pt_lim_mult id (fun _ => b)); [apply derivable_pt_lim_id|apply derivable_pt_lim_const]. }
  replace (0 + (1 * b + 0 * 0))%R with b in K by ring. exact K. Qed.

Lemma deriv_ext f g x l : (forall t, f t = g t) -> derivable_pt_lim f x l -> derivable_pt_lim g x l.
Proof. intros E H eps Heps. destruct (H eps Heps) as [d Hd]. exists d. intros h H1 H2. rewrite <- !E. auto. Qed.

Lemma deriv_scal g f l : derivable_pt_lim f 0 l -> derivable_pt_lim (fun t => g * f t)%R 0 (g * l)%R.
Proof. intros H. replace (g * l)%R with (0 * f 0 + g * l)%R by ring.
  apply (derivable_pt_lim_mult (fun _ => g) f); auto. apply derivable_pt_lim_const. Qed.

Lemma deriv_mul f g x y : derivable_pt_lim f 0 x -> derivable_pt_lim g 0 y ->
  derivable_pt_lim (fun t => f t * g t)%R 0 (x * g 0 + f 0 * y)%R.
Proof. intros. apply (derivable_pt_lim_mult f g); auto. Qed.

Lemma deriv_lin2 a b c d : derivable_pt_lim (fun t => (a + t * b) * (c + t * d))%R 0 (b * c + a * d)%R.
Proof. replace (b * c + a * d)%R with (b * (c + 0 * d) + (a + 0 * b) * d)%R by ring.
  apply deriv_mul; apply deriv_lin. Qed.
Lemma deriv_lin3 a b c d e f : derivable_pt_lim (fun t => (a + t * b) * (c + t * d) * (e + t * f))%R 0
  (b * c * e + a * d * e + a * c * f)%R.
Proof. replace (b * c * e + a * d * e + a * c * f)%R with
    ((b * c + a * d) * (e + 0 * f) + ((a + 0 * b) * (c + 0 * d)) * f)%R by ring.
  apply (deriv_mul (fun t => (a + t * b) * (c + t * d))%R); [apply deriv_lin2|apply deriv_lin]. Qed.
Lemma deriv_lin4 a b c d e f g h : derivable_pt_lim
  (fun t => (a + t * b) * (c + t * d) * (e + t * f) * (g + t * h))%R 0
  (b * c * e * g + a * d * e * g + a * c * f * g + a * c * e * h)%R.
Proof. replace (b * c * e * g + a * d * e * g + a * c * f * g + a * c * e * h)%R with
    ((b * c * e + a * d * e + a * c * f) * (g + 0 * h) + ((a + 0 * b) * (c + 0 * d) * (e + 0 * f)) * h)%R by ring.
  apply (deriv_mul (fun t => (a + t * b) * (c + t * d) * (e + t * f))%R); [apply deriv_lin3|apply deriv_lin]. Qed.

(* the value an operator's jacobian takes on a direction *)
Definition jac_dir (r : nat) (J : jac) (d : vec) : vec :=
  match J with JZero => repeat 0%R r | JMat A => matvec A d end.

Lemma is_vec_along r q d t : is_vec r q -> is_vec r (along q d t).
Proof. intros H. unfold along, is_vec. rewrite map_length, seq_length. auto. Qed.
Lemma vget_along r q d t i : is_vec r q -> i < r -> vget (along q d t) i = (vget q i + t * vget d i)%R.
Proof. intros Hq Hi. unfold along. rewrite vget_tab by (rewrite Hq; auto). reflexivity. Qed.

Section Poly.
  Variables (r : nat) (q d : vec).
  Hypotheses (Hq : is_vec r q) (Hd : is_vec r d).
  Local Notation Q := (vget q).
  Local Notation D := (vget d).
  Local Open Scope R_scope.

  Lemma jac2 (g : nat -> nat -> R) : derivable_pt_lim
    (fun t => bsum r (fun a => bsum r (fun b => g a b * ((Q a + t * D a) * (Q b + t * D b))))) 0
    (bsum r (fun a => bsum r (fun b => (g a b + g b a) * Q b) * D a)).
  Proof. replace (bsum r (fun a => bsum r (fun b => (g a b + g b a) * Q b) * D a)) with
     (bsum r (fun a => bsum r (fun b => g a b * (D a * Q b + Q a * D b)))).
    - apply deriv_bsum. intros a Ha. apply deriv_bsum. intros b Hb. apply deriv_scal. apply deriv_lin2.
    - transitivity (bsum r (fun a => bsum r (fun b => g a b * D a * Q b)) + bsum r (fun a => bsum r (fun b => g a b * Q a * D b))).
      { rewrite <- bsum_plus. apply bsum_ext. intros. rewrite <- bsum_plus. apply bsum_ext. intros. ring. }
      rewrite (bsum_swap r r (fun a b => g a b * Q a * D b)). rewrite <- bsum_plus. apply bsum_ext. intros a Ha.
      rewrite <- bsum_scal_r, <- bsum_plus. apply bsum_ext. intros. ring. Qed.

  Lemma sum3_perm1 (f : nat -> nat -> nat -> R) :
    bsum r (fun a => bsum r (fun b => bsum r (fun c => f a b c))) = bsum r (fun a => bsum r (fun b => bsum r (fun c => f b a c))).
  Proof. rewrite (bsum_swap r r (fun a b => bsum r (fun c => f a b c))). reflexivity. Qed.
  Lemma sum3_perm2 (f : nat -> nat -> nat -> R) :
    bsum r (fun a => bsum r (fun b => bsum r (fun c => f a b c))) = bsum r (fun a => bsum r (fun b => bsum r (fun c => f b c a))).
  Proof. transitivity (bsum r (fun a => bsum r (fun c => bsum r (fun b => f a b c)))).
    { apply bsum_ext. intros. apply bsum_swap. }
    rewrite (bsum_swap r r (fun a c => bsum r (fun b => f a b c))). reflexivity. Qed.

  Lemma jac3 (g : nat -> nat -> nat -> R) : derivable_pt_lim
    (fun t => bsum r (fun a => bsum r (fun b => bsum r (fun c =>
        g a b c * ((Q a + t * D a) * (Q b + t * D b) * (Q c + t * D c)))))) 0
    (bsum r (fun a => bsum r (fun b => bsum r (fun c => (g a b c + g b a c + g b c a) * Q c) * Q b) * D a)).
  Proof. replace (bsum r (fun a => bsum r (fun b => bsum r (fun c => (g a b c + g b a c + g b c a) * Q c) * Q b) * D a)) with
     (bsum r (fun a => bsum r (fun b => bsum r (fun c => g a b c * (D a * Q b * Q c + Q a * D b * Q c + Q a * Q b * D c))))).
    - apply deriv_bsum. intros a Ha. apply deriv_bsum. intros b Hb. apply deriv_bsum. intros c Hc.
      apply deriv_scal. apply deriv_lin3.
    - transitivity (bsum r (fun a => bsum r (fun b => bsum r (fun c => g a b c * D a * Q b * Q c)))
                  + bsum r (fun a => bsum r (fun b => bsum r (fun c => g a b c * Q a * D b * Q c)))
                  + bsum r (fun a => bsum r (fun b => bsum r (fun c => g a b c * Q a * Q b * D c)))).
      { rewrite <- !bsum_plus. apply bsum_ext. intros. rewrite <- !bsum_plus. apply bsum_ext. intros.
        rewrite <- !bsum_plus. apply bsum_ext. intros. ring. }
      rewrite (sum3_perm1 (fun a b c => g a b c * Q a * D b * Q c)).
      rewrite (sum3_perm2 (fun a b c => g a b c * Q a * Q b * D c)).
      rewrite <- !bsum_plus. apply bsum_ext. intros a Ha. rewrite <- !bsum_plus. rewrite <- bsum_scal_r. apply bsum_ext. intros b Hb.
      rewrite <- !bsum_plus. rewrite <- !bsum_scal_r. apply bsum_ext. intros. ring. Qed.

  Lemma sum4_permA (f : nat -> nat -> nat -> nat -> R) :   (* swap a, b *)
    bsum r (fun a => bsum r (fun b => bsum r (fun c => bsum r (fun e => f a b c e)))) =
    bsum r (fun a => bsum r (fun b => bsum r (fun c => bsum r (fun e => f b a c e)))).
  Proof. rewrite (bsum_swap r r (fun a b => bsum r (fun c => bsum r (fun e => f a b c e)))). reflexivity. Qed.
  Lemma sum4_permB (f : nat -> nat -> nat -> nat -> R) :   (* swap a, c *)
    bsum r (fun a => bsum r (fun b => bsum r (fun c => bsum r (fun e => f a b c e)))) =
    bsum r (fun a => bsum r (fun b => bsum r (fun c => bsum r (fun e => f c b a e)))).
  Proof. transitivity (bsum r (fun b => bsum r (fun a => bsum r (fun c => bsum r (fun e => f a b c e))))).
    { apply bsum_swap. }
    transitivity (bsum r (fun b => bsum r (fun a => bsum r (fun c => bsum r (fun e => f c b a e))))).
    { apply bsum_ext. intros b Hb. apply bsum_swap. } apply bsum_swap. Qed.
  Lemma sum4_permC (f : nat -> nat -> nat -> nat -> R) :   (* swap a, e *)
    bsum r (fun a => bsum r (fun b => bsum r (fun c => bsum r (fun e => f a b c e)))) =
    bsum r (fun a => bsum r (fun b => bsum r (fun c => bsum r (fun e => f e b c a)))).
  Proof. transitivity (bsum r (fun b => bsum r (fun c => bsum r (fun a => bsum r (fun e => f a b c e))))).
    { rewrite bsum_swap. apply bsum_ext. intros. apply bsum_swap. }
    transitivity (bsum r (fun b => bsum r (fun c => bsum r (fun a => bsum r (fun e => f e b c a))))).
    { apply bsum_ext. intros b Hb. apply bsum_ext. intros c Hc. apply bsum_swap. }
    symmetry. rewrite bsum_swap. apply bsum_ext. intros. apply bsum_swap. Qed.

  Lemma jac4 (g : nat -> nat -> nat -> nat -> R) : derivable_pt_lim
    (fun t => bsum r (fun a => bsum r (fun b => bsum r (fun c => bsum r (fun e =>
        g a b c e * ((Q a + t * D a) * (Q b + t * D b) * (Q c + t * D c) * (Q e + t * D e))))))) 0
    (bsum r (fun a => bsum r (fun b => bsum r (fun c => bsum r (fun e =>
        (g a b c e + g b a c e + g c b a e + g e b c a) * Q e) * Q c) * Q b) * D a)).
  Proof. replace (bsum r (fun a => bsum r (fun b => bsum r (fun c => bsum r (fun e =>
        (g a b c e + g b a c e + g c b a e + g e b c a) * Q e) * Q c) * Q b) * D a)) with
     (bsum r (fun a => bsum r (fun b => bsum r (fun c => bsum r (fun e => g a b c e *
        (D a * Q b * Q c * Q e + Q a * D b * Q c * Q e + Q a * Q b * D c * Q e + Q a * Q b * Q c * D e)))))).
    - apply deriv_bsum. intros a Ha. apply deriv_bsum. intros b Hb. apply deriv_bsum. intros c Hc.
      apply deriv_bsum. intros e He. apply deriv_scal. apply deriv_lin4.
    - transitivity (bsum r (fun a => bsum r (fun b => bsum r (fun c => bsum r (fun e => g a b c e * D a * Q b * Q c * Q e))))
                  + bsum r (fun a => bsum r (fun b => bsum r (fun c => bsum r (fun e => g a b c e * Q a * D b * Q c * Q e))))
                  + bsum r (fun a => bsum r (fun b => bsum r (fun c => bsum r (fun e => g a b c e * Q a * Q b * D c * Q e))))
                  + bsum r (fun a => bsum r (fun b => bsum r (fun c => bsum r (fun e => g a b c e * Q a * Q b * Q c * D e))))).
      { rewrite <- !bsum_plus. apply bsum_ext. intros. rewrite <- !bsum_plus. apply bsum_ext. intros.
        rewrite <- !bsum_plus. apply bsum_ext. intros. rewrite <- !bsum_plus. apply bsum_ext. intros. ring. }
      rewrite (sum4_permA (fun a b c e => g a b c e * Q a * D b * Q c * Q e)).
      rewrite (sum4_permB (fun a b c e => g a b c e * Q a * Q b * D c * Q e)).
      rewrite (sum4_permC (fun a b c e => g a b c e * Q a * Q b * Q c * D e)).
      rewrite <- !bsum_plus. apply bsum_ext. intros a Ha. rewrite <- !bsum_plus. rewrite <- bsum_scal_r. apply bsum_ext. intros b Hb.
      rewrite <- !bsum_plus. rewrite <- !bsum_scal_r. apply bsum_ext. intros c Hc.
      rewrite <- !bsum_plus. rewrite <- !bsum_scal_r. apply bsum_ext. intros. ring. Qed.
End Poly.

Lemma jacobian_derivative junk r m o q u J : (forall n, length (junk n) = n) -> 0 < r -> 0 < m -> wf_op r m o ->
  is_vec r q -> is_vec m u -> jacobian junk o q u = Ok J ->
  forall d, is_vec r d -> exists f : R -> vec,
    (forall t, apply o (V (along q d t)) (V u) = Ok (V (f t))) /\
    forall i, i < r -> derivable_pt_lim (fun t => vget (f t) i) 0 (vget (jac_dir r J d) i).
Proof. intros Hj Hr Hm Hwf Hq Hu HJ d Hd.
  exists (fun t => matvec (entries2 o) (datavec o (along q d t) u)). split.
  { intros t. apply (apply_vec r m); auto. apply is_vec_along; auto. }
  intros i Hi. destruct o as [c|A|dg H|B|N].
  - injection HJ as <-. cbn [jac_dir]. rewrite repeat_vget by auto. cbn [datavec]. apply derivable_pt_lim_const.
  - injection HJ as <-. cbn [jac_dir datavec entries2 wf_op] in *. rewrite (vget_matvec r r) by auto.
    apply (deriv_ext (fun t => bsum r (fun k => mget A i k * (vget q k + t * vget d k))%R)).
    { intros t. rewrite (vget_matvec r r) by (auto; apply is_vec_along; auto). apply bsum_ext. intros k Hk.
      rewrite (vget_along r) by auto. reflexivity. }
    apply deriv_bsum. intros k Hk. apply deriv_scal. apply deriv_lin.
  - cbn [jacobian wf_op] in *. rewrite (is_mat_nrows _ _ _ Hwf) in HJ.
    destruct (expand dg junk H) as [G|e] eqn:EG; [|discriminate].
    destruct (expand_right_inverse' dg junk r r H Hj Hr Hwf G EG) as [HG [HV _]].
    rewrite Hq, Nat.eqb_refl in HJ. cbn [negb] in HJ. injection HJ as <-. cbn [jac_dir datavec entries2].
    unfold tab2. rewrite (vget_matvec r r) by (auto; apply is_mat_tab).
    assert (Hf : forall t, vget (matvec H (ckron_of Rmult dg (along q d t))) i =
        bsum (r ^ deg dg) (fun x => mget G i x * vget (kron_power (deg dg) (along q d t)) x)%R).
    { intros t. rewrite <- HV by (apply is_vec_along; auto). rewrite (vget_matvec r (r ^ deg dg)); auto.
      unfold is_vec. rewrite kron_power_length. rewrite (is_vec_along r) by auto. reflexivity. }
    destruct dg; cbn [deg] in *.
    + apply (deriv_ext (fun t => bsum r (fun a => bsum r (fun b => t3 r G i a b * ((vget q a + t * vget d a) * (vget q b + t * vget d b)))))%R).
      { intros t. rewrite Hf, (kp2 r) by (apply is_vec_along; auto). apply bsum_ext; intros a Ha; apply bsum_ext; intros b Hb.
        rewrite !(vget_along r) by auto. reflexivity. }
      erewrite (bsum_ext r _ (fun a => _ * vget d a)%R); [apply (jac2 r q d (t3 r G i))|].
      intros a Ha. cbv beta. rewrite mget_tab by auto. reflexivity.
    + apply (deriv_ext (fun t => bsum r (fun a => bsum r (fun b => bsum r (fun c => t4 r G i a b c * ((vget q a + t * vget d a) * (vget q b + t * vget d b) * (vget q c + t * vget d c))))))%R).
      { intros t. rewrite Hf, (kp3 r) by (apply is_vec_along; auto). apply bsum_ext; intros a Ha; apply bsum_ext; intros b Hb.
        apply bsum_ext; intros c Hc. rewrite !(vget_along r) by auto. reflexivity. }
      erewrite (bsum_ext r _ (fun a => _ * vget d a)%R); [apply (jac3 r q d (t4 r G i))|].
      intros a Ha. cbv beta. rewrite mget_tab by auto. reflexivity.
    + apply (deriv_ext (fun t => bsum r (fun a => bsum r (fun b => bsum r (fun c => bsum r (fun e => t5 r G i a b c e * ((vget q a + t * vget d a) * (vget q b + t * vget d b) * (vget q c + t * vget d c) * (vget q e + t * vget d e)))))))%R).
      { intros t. rewrite Hf, (kp4 r) by (apply is_vec_along; auto). apply bsum_ext; intros a Ha; apply bsum_ext; intros b Hb.
        apply bsum_ext; intros c Hc. apply bsum_ext; intros e He. rewrite !(vget_along r) by auto. reflexivity. }
      erewrite (bsum_ext r _ (fun a => _ * vget d a)%R); [apply (jac4 r q d (t5 r G i))|].
      intros a Ha. cbv beta. rewrite mget_tab by auto. reflexivity.
  - injection HJ as <-. cbn [jac_dir]. rewrite repeat_vget by auto. cbn [datavec]. apply derivable_pt_lim_const.
  - cbn [jacobian wf_op datavec entries2] in *. rewrite (is_mat_nrows _ _ _ Hwf), (ncols_is_mat r (r * m)) in HJ by auto.
    rewrite (Nat.mul_comm r m), Nat.div_mul, Hu, Nat.eqb_refl in HJ by lia. cbn [negb] in HJ. injection HJ as <-.
    cbn [jac_dir]. unfold tab2. rewrite (vget_matvec r r) by (auto; apply is_mat_tab).
    apply (deriv_ext (fun t => bsum m (fun k => bsum r (fun j => mget N i (k * r + j) * vget u k * (vget q j + t * vget d j))))%R).
    { intros t. rewrite (vget_matvec r (r * m)) by (auto; apply is_vec_kronv; auto; apply is_vec_along; auto).
      rewrite (Nat.mul_comm r m), bsum_mul. apply bsum_ext. intros k Hk. apply bsum_ext. intros j Hj'.
      pose proof (vget_kronv u (along q d t) k j) as K. rewrite (is_vec_along r q d t Hq) in K. rewrite K by auto.
      rewrite (vget_along r) by auto. ring. }
    erewrite (bsum_ext r _ (fun j => bsum m (fun k => mget N i (k * r + j) * vget u k * vget d j)%R)).
    { rewrite bsum_swap. apply deriv_bsum. intros k Hk. apply deriv_bsum. intros j Hj'. apply deriv_scal. apply deriv_lin. }
    intros j Hj'. cbv beta. rewrite mget_tab by auto. rewrite <- bsum_scal_r. apply bsum_ext. intros. ring. Qed.

(* jacobian succeeds on well-shaped operands (up to the sizes where expansion is proved to converge) *)
Lemma jacobian_total junk r m o q u : 0 < r -> 0 < m -> wf_op r m o -> is_vec r q -> is_vec m u ->
  (forall d H, o = OPoly d H -> newton_guard d r) -> exists J, jacobian junk o q u = Ok J.
Proof. intros Hr Hm Hwf Hq Hu Hg. destruct o as [c|A|dg H|B|N]; cbn [jacobian wf_op] in *; eauto.
  - rewrite (expand_ok dg junk r) by (eauto; apply (ncols_is_mat r); auto).
    rewrite (is_mat_nrows _ _ _ Hwf), Hq, Nat.eqb_refl. simpl. eauto.
  - rewrite (is_mat_nrows _ _ _ Hwf), (ncols_is_mat r (r * m)) by auto.
    rewrite (Nat.mul_comm r m), Nat.div_mul, Hu, Nat.eqb_refl by lia. simpl. eauto. Qed.

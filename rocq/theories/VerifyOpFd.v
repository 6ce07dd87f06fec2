(* VerifyOpFd.v -- the finite difference check of verify(): where it must pass, where it converges, where it fails. *)
From Coq Require Import String ZArith Lra Lia Psatz.
From Verif Require Import MatAlg LinAlg OpsProofs JacProofs GalProofs AffProofs VerifyTf VerifyOpProofs VerifyOpLib.
From Verif Require Import SpecVerifyOp.
#[local] Open Scope nat_scope.
#[local] Open Scope list_scope.

(* the derivative of apply along the b-th axis is column b of the Jacobian *)
Lemma jac_axis junk r m e x u J : (forall n, length (junk n) = n) -> 0 < r -> 0 < m -> wf_op r m e -> is_vec r x -> is_vec m u -> jacobian junk e x u = Ok (JMat J) ->
  forall a b, a < r -> b < r -> derivable_pt_lim (fun t => vget (matvec (entries2 e) (datavec e (along x (nth b (eye r) []) t) u)) a) 0 (mget J a b).
Proof.
  intros Hj Hr Hm Hw Hx Hu EJ a b Ha Hb. destruct (nth_eye r b Hb) as [He Hev].
  destruct (jacobian_derivative junk r m e x u _ Hj Hr Hm Hw Hx Hu EJ (nth b (eye r) []) He) as (f & Hf & Hd). specialize (Hd a Ha).
  assert (HJ : is_mat r r J) by (apply (jac_mat junk r m e x u); auto).
  cbn [jac_dir] in Hd. rewrite (vget_matvec r r) in Hd by auto.
  replace (mget J a b) with (bsum r (fun k => (mget J a k * vget (nth b (eye r) []) k)%R)).
  2:{ rewrite (bsum_ext r _ (fun k => if k =? b then mget J a b else 0%R)). - apply (bsum_delta r b (fun _ => mget J a b)); auto.
      - intros k Hk. rewrite Hev by auto. rewrite (Nat.eqb_sym k b). destruct (Nat.eqb_spec b k) as [<-|]; ring. }
  intros eps Heps. destruct (Hd eps Heps) as [d H]. exists d. intros h Hh1 Hh2. specialize (H h Hh1 Hh2).
  assert (K : forall t, f t = matvec (entries2 e) (datavec e (along x (nth b (eye r) []) t) u)).
  { intros t. pose proof (Hf t) as E. rewrite (apply_vec r m) in E by (auto; apply is_vec_along'; auto). congruence. }
  now rewrite !K in H.
Qed.
Lemma small_all n (P : nat -> R -> Prop) : (forall i, i < n -> exists d, (0 < d)%R /\ forall h, (0 < Rabs h < d)%R -> P i h) ->
  exists d, (0 < d)%R /\ forall i, i < n -> forall h, (0 < Rabs h < d)%R -> P i h.
Proof.
  induction n as [|n IH]; intros H. - exists 1%R. split; [lra|]. intros; lia.
  - destruct IH as (d1 & H1 & K1); [intros; apply H; lia|]. destruct (H n) as (d2 & H2 & K2); [lia|]. exists (Rmin d1 d2). split; [apply Rmin_pos; auto|].
    intros i Hi h Hh. pose proof (Rmin_l d1 d2). pose proof (Rmin_r d1 d2). destruct (Nat.eq_dec i n) as [->|]; [apply K2; lra|apply K1; [lia|lra]].
Qed.
Lemma along_0 r x d : is_vec r x -> along x d 0 = x.
Proof. intros Hx. apply (vec_ext r); auto using is_vec_along'. intros i Hi. rewrite (vget_along r) by auto. ring. Qed.
Lemma dist_bound r A B eps : (0 <= eps)%R -> (forall a b, a < r -> b < r -> (Rabs (mget A a b - mget B a b) <= eps)%R) -> (distance r r A B <= INR r * eps)%R.
Proof.
  intros He H. unfold distance. rewrite <- (sqrt_Rsqr (INR r * eps)) by (apply Rmult_le_pos; auto; apply pos_INR). apply sqrt_le_1_alt.
  apply Rle_trans with (bsum r (fun _ => bsum r (fun _ => Rsqr eps))).
  - apply bsum_le. intros a Ha. apply bsum_le. intros b Hb. apply Rsqr_le_abs_1. rewrite (Rabs_pos_eq eps) by auto. auto.
  - rewrite !bsum_const. unfold Rsqr. right. ring.
Qed.
Lemma converges r f x J tol : 0 < r -> is_vec r x -> (0 < norm r r J)%R -> (0 < tol)%R ->
  (forall a b, a < r -> b < r -> derivable_pt_lim (fun t => vget (f (along x (nth b (eye r) []) t)) a) 0 (mget J a b)) ->
  exists h0, (0 < h0)%R /\ forall h, (0 < Rabs h < h0)%R -> (distance r r (quotients r f x h) J <= tol * norm r r J)%R.
Proof.
  intros Hr Hx HJ Ht Hd. assert (Hrr : (0 < INR r)%R) by (apply lt_0_INR; auto). set (eps := (tol * norm r r J / INR r)%R).
  assert (He : (0 < eps)%R) by (unfold eps; apply Rdiv_lt_0_compat; auto; apply Rmult_lt_0_compat; auto).
  destruct (small_all r (fun a h => forall b, b < r -> (Rabs (mget (quotients r f x h) a b - mget J a b) <= eps)%R)) as (d & Hd0 & K).
  { intros a Ha. destruct (small_all r (fun b h => (Rabs (mget (quotients r f x h) a b - mget J a b) <= eps)%R)) as (d & Hd0 & K).
    { intros b Hb. destruct (Hd a b Ha Hb eps He) as [d Q]. exists d. split; [apply cond_pos|]. intros h Hh. assert (h <> 0%R) by (intros ->; rewrite Rabs_R0 in Hh; lra).
      specialize (Q h H (proj2 Hh)). rewrite Rplus_0_l, (along_0 r) in Q by auto. rewrite mget_quotients by auto. lra. }
    exists d. split; auto. }
  exists d. split; auto. intros h Hh. replace (tol * norm r r J)%R with (INR r * eps)%R by (unfold eps; field; lra). apply dist_bound; [lra|]. intros a b Ha Hb. apply K; auto.
Qed.
(* operators that are linear in the state: every step is exact *)
Lemma affine_exact r f x J tol h : 0 < r -> is_vec r x -> (0 <= tol)%R -> h <> 0%R ->
  (forall a b, a < r -> b < r -> exists al be, (forall t, vget (f (along x (nth b (eye r) []) t)) a = (al + t * be)%R) /\ derivable_pt_lim (fun t => vget (f (along x (nth b (eye r) []) t)) a) 0 (mget J a b)) ->
  (distance r r (quotients r f x h) J <= tol * norm r r J)%R.
Proof.
  intros Hr Hx Ht Hh Hd. apply Rle_trans with (INR r * 0)%R; [|rewrite Rmult_0_r; apply Rmult_le_pos; auto; apply sqrt_pos]. apply dist_bound; [lra|]. intros a b Ha Hb.
  destruct (Hd a b Ha Hb) as (al & be & E & D). rewrite mget_quotients by auto. rewrite <- (along_0 r x (nth b (eye r) []) Hx) at 2. rewrite !E.
  assert (mget J a b = be) as ->.
  { apply (uniqueness_limite (fun t => vget (f (along x (nth b (eye r) []) t)) a) 0%R); auto. intros eps He. exists (mkposreal 1 Rlt_0_1). intros k Hk _. rewrite !E.
    replace ((al + (0 + k) * be - (al + 0 * be)) / k - be)%R with 0%R by (field; auto). rewrite Rabs_R0; auto. }
  replace ((al + h * be - (al + 0 * be)) / h - be)%R with 0%R by (field; auto). rewrite Rabs_R0. lra.
Qed.

Lemma datavec_linear r m e x d u t : (forall dg H, e <> OPoly dg H) -> wf_op r m e -> is_vec r x -> is_vec r d -> is_vec m u ->
  cls_of e = CLin \/ cls_of e = CStIn -> datavec e (along x d t) u = along (datavec e x u) (datavec e d u) t.
Proof.
  intros Hp Hw Hx Hd Hu Hc. destruct e as [c|A|dg H|B|N]; cbn in Hc; try (destruct Hc; discriminate); [reflexivity|]. cbn [datavec].
  assert (L : forall y, is_vec r y -> is_vec (m * r) (kronv u y)) by (intros; rewrite Nat.mul_comm; apply is_vec_kronv; auto).
  destruct r as [|r']. { assert (N0 : forall y : vec, is_vec 0 y -> y = []) by (intros [|] HY; [auto|discriminate]). apply (vec_ext 0).
    - rewrite <- (Nat.mul_0_r m). apply L. apply is_vec_along'; auto. - unfold is_vec, along. rewrite map_length, seq_length, (L x Hx). lia. - intros; lia. }
  set (r := S r') in *. apply (vec_ext (m * r)); [apply L, is_vec_along'; auto|unfold is_vec, along; rewrite map_length, seq_length; apply (L x Hx)|].
  intros i Hi. rewrite (vget_along (m * r)) by auto. assert (Hi' : i / r < m) by (apply Nat.div_lt_upper_bound; unfold r in *; lia). assert (Hj : i mod r < r) by (apply Nat.mod_upper_bound; unfold r; lia).
  rewrite (Nat.div_mod i r) by (unfold r; lia). rewrite (Nat.mul_comm r (i / r)).
  pose proof (vget_kronv u (along x d t) (i / r) (i mod r)) as K1. rewrite (is_vec_along' r x d t Hx) in K1. rewrite K1 by auto.
  pose proof (vget_kronv u x (i / r) (i mod r)) as K2. rewrite Hx in K2. rewrite K2 by auto.
  pose proof (vget_kronv u d (i / r) (i mod r)) as K3. rewrite Hd in K3. rewrite K3 by auto. rewrite (vget_along r) by auto. ring.
Qed.
Section Confirm.
Variables (junk : nat -> vec) (D : draws) (r m k : nat) (o : mop) (e : op).
Hypothesis Hj : forall n, length (junk n) = n. Hypothesis HD : drawn D. Hypothesis Hr : 0 < r. Hypothesis Hm : 0 < m.
Hypothesis Ho : mo_ent o = Some e. Hypothesis Hc : cls_of e = mo_cls o. Hypothesis Hw : wf_op r m e. Hypothesis Hg : size_ok r e.
Let u := test_input D (mo_cls o) m k.
Let um := col0 (dr_U D m k).
Lemma o_is : o = {| mo_cls := cls_of e; mo_ent := Some e |}. Proof. destruct o; cbn in *; congruence. Qed.
Lemma jac_is q : op_jacobian junk o q u = jacobian junk e q um.
Proof. unfold u. rewrite o_is. apply (lib_jacobian junk D k r m e Hw Hg). Qed.
Lemma app_is q : is_vec r q -> op_apply o (V q) (option_map V u) = Ok (V (matvec (entries2 e) (datavec e q um))).
Proof. intros Hq. unfold u. rewrite o_is. cbn [mo_cls]. rewrite (lib_apply D k m e) by auto. apply (apply_vec r m); auto. apply um_vec; auto. Qed.
Lemma um_is : is_vec m um. Proof. apply um_vec; auto. Qed.
Lemma linear_confirmed : (forall d, mo_cls o <> CPoly d) -> jacobian_confirmed junk D o r u.
Proof.
  intros Hp. assert (Hx : is_vec r (dr_x D r)) by apply HD. unfold jacobian_confirmed. rewrite jac_is.
  destruct (jacobian_total junk r m e (dr_x D r) um Hr Hm Hw Hx um_is Hg) as (J & EJ). exists J. split; auto. destruct J as [|J]; auto. intros f Hf.
  exists 1. split; [lia|]. assert (E : forall q, is_vec r q -> f q = matvec (entries2 e) (datavec e q um)) by (intros q Hq; pose proof (Hf q Hq) as Q; rewrite app_is in Q by auto; congruence).
  assert (Hlin : cls_of e = CLin \/ cls_of e = CStIn). { destruct e as [c|A|dg H|B|N]; cbn; auto; try discriminate. exfalso. apply (Hp dg). now rewrite <- Hc. }
  apply affine_exact; auto; [left; apply Rinv_0_lt_compat, pow_lt; lra|apply Rinv_neq_0_compat, pow_nonzero; lra|].
  intros a b Ha Hb. destruct (nth_eye r b Hb) as [He _]. pose proof (jac_axis junk r m e _ um J Hj Hr Hm Hw Hx um_is EJ a b Ha Hb) as Dv.
  set (d := nth b (eye r) []) in *.
  exists (vget (matvec (entries2 e) (datavec e (dr_x D r) um)) a), (vget (matvec (entries2 e) (datavec e d um)) a).
  assert (L : forall q, is_vec r q -> is_vec (opdim e r m) (datavec e q um)) by (intros; apply is_vec_datavec; auto using um_is). pose proof (entries2_shape r m e Hw) as HE. split.
  - intros t. rewrite E by (apply is_vec_along'; auto). rewrite (datavec_linear r m) by (auto using um_is; intros dg H ->; apply (Hp dg); rewrite <- Hc; auto).
    rewrite !(vget_matvec r (opdim e r m)) by (auto using is_vec_along'). rewrite <- bsum_scal_l, <- bsum_plus. apply bsum_ext. intros i Hi. rewrite (vget_along (opdim e r m)) by auto. ring.
  - intros eps Heps. destruct (Dv eps Heps) as [dl H]. exists dl. intros h H1 H2. rewrite !E by (apply is_vec_along'; auto). apply H; auto.
Qed.
Lemma fd_converges x J tol : is_vec r x -> op_jacobian junk o x u = Ok (JMat J) -> (0 < norm r r J)%R -> (0 < tol)%R ->
  forall f, (forall q, is_vec r q -> op_apply o (V q) (option_map V u) = Ok (V (f q))) ->
  exists h0, (0 < h0)%R /\ forall h, (0 < Rabs h < h0)%R -> (distance r r (quotients r f x h) J <= tol * norm r r J)%R.
Proof.
  intros Hx EJ HJ Ht f Hf. rewrite jac_is in EJ. apply converges; auto. intros a b Ha Hb. pose proof (jac_axis junk r m e _ um J Hj Hr Hm Hw Hx um_is EJ a b Ha Hb) as Dv.
  assert (E : forall q, is_vec r q -> f q = matvec (entries2 e) (datavec e q um)) by (intros q Hq; pose proof (Hf q Hq) as Q; rewrite app_is in Q by auto; congruence).
  intros eps Heps. destruct (Dv eps Heps) as [dl H]. exists dl. intros h H1 H2. rewrite !E by (apply is_vec_along'; auto). apply H; auto.
Qed.
End Confirm.

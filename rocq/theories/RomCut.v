(* RomCut.v -- inputs beyond the last state are not used by time-discrete models; estimators are ignored by them. *)
From Verif Require Import LinAlg MonoPredict RomParts.
From Verif Require Import SpecRom.
#[local] Open Scope nat_scope.

Lemma cut_agree k a b : agree_upto k a b -> cut k a = cut k b.
Proof.
  destruct a as [u|A], b as [v|B]; cbn; try contradiction.
  - intros (H1 & H2 & H). f_equal. apply (vec_ext k); unfold is_vec; try (rewrite firstn_length; lia). intros i Hi. unfold vget in *. 
    assert (F : forall l : vec, nth i (firstn k l) 0%R = nth i l 0%R). { intros l. clear -Hi. revert k i Hi. induction l; intros [|k] [|i] Hi; cbn; auto; try lia. apply IHl. lia. }
    rewrite !F. auto.
  - intros (m & ka & kb & HA & HB & H1 & H2 & H). f_equal.
    assert (S : forall ka A, is_mat m ka A -> k <= ka -> is_mat m k (map (firstn k) A)).
    { clear. intros ka A [L F] Hk. split; [now rewrite map_length|]. apply Forall_forall. intros r Hr. apply in_map_iff in Hr. destruct Hr as (x & <- & Hx). rewrite Forall_forall in F. rewrite firstn_length, (F x Hx). lia. }
    apply (mat_ext m k); eauto. intros i j Hi Hj. rewrite (mget_firstn m ka), (mget_firstn m kb) by auto. auto.
Qed.
Lemma inputs_cut X d mus qs zs us us' : pm_kind (pa_base d) = KDiscrete -> length us = length qs -> length us' = length qs ->
  (forall i q u u', nth_error qs i = Some q -> nth_error us i = Some u -> nth_error us' i = Some u' -> agree_upto (width_of q) u u') ->
  pmodel_fit X d mus qs zs (Some us) = pmodel_fit X d mus qs zs (Some us').
Proof.
  intros Hk L1 L2 H. unfold pmodel_fit. rewrite Hk. cbn [option_map].
  replace (map2 (fun u q => cut (width_of q) u) us qs) with (map2 (fun u q => cut (width_of q) u) us' qs); auto.
  revert us us' L1 L2 H. induction qs as [|q qs IH]; intros [|u us] [|u' us'] L1 L2 H; try discriminate; auto. cbn. f_equal.
  - symmetry. apply cut_agree. exact (H 0 q u u' eq_refl eq_refl eq_refl).
  - apply IH; auto. intros i q0 v v' E1 E2 E3. exact (H (S i) q0 v v' E1 E2 E3).
Qed.
Lemma estimator_ignored X d lf t b D T ft fb : m_kind d <> KContinuous -> rom_fit X (mk_rom d lf t b D) T ft fb = rom_fit X (mk_rom d lf t b None) T ft fb.
Proof. intros H. unfold mk_rom. destruct (m_kind d); try congruence; reflexivity. Qed.
Lemma rom_made d lf t b D : let r := mk_rom d lf t b D in rm_model r = d /\ rp_lift (rm_parts r) = lf /\ rp_tf (rm_parts r) = t /\ rp_basis (rm_parts r) = b /\ (m_kind d = KContinuous -> rm_ddt r = D).
Proof. cbn. repeat split; auto. intros ->. reflexivity. Qed.

(* MonoHist.v -- every history of assignments and fits keeps a model consistent. *)
From Coq Require Import ZArith String.
From Verif Require Export MonoFit.
#[local] Open Scope nat_scope.

(* a solver that has not been fit *)
Definition nodata (s : lsq) : Prop :=
  match s with
  | LPlain p => pl_data p = None | LL2 p => l2_pre p = None | LL2D p => ld_pre p = None | LTik p => tk_data p = None
  | LTikD p => td_data p = None | LTsvd p => ts_pre p = None | LTls p => tl_sol p = None
  end.
Lemma fresh_nodata svd s : fresh_solver svd s -> nodata s.
Proof. destruct s; cbn; tauto. Qed.
Lemma nodata_solve X s : nodata s -> exists e, lsq_solve X s = Err e.
Proof. destruct s as [p|p|p|p|p|p|p]; cbn; intros H.
  - unfold plain_solve. rewrite H. eauto.
  - unfold l2_solve. rewrite H. destruct (l2_reg p); eauto.
  - unfold ld_solve. rewrite H. destruct (ld_reg p); eauto.
  - unfold tk_solve. rewrite H. destruct (tk_reg p); eauto.
  - unfold td_solve. rewrite H. destruct (td_reg p); eauto.
  - unfold ts_solve. rewrite H. destruct (ts_modes p); eauto.
  - unfold tls_solve. rewrite H. destruct (tl_data p); eauto. Qed.
Lemma nodata_setreg s g : nodata s -> nodata (fst (lsq_setreg s g)).
Proof. destruct s as [p|p|p|p|p|p|p], g as [g|g|g|n]; cbn [lsq_setreg wrap fst nodata]; auto; intros H.
  - destruct g as [|x|v|]; cbn; auto. destruct (Rlt_dec x 0); auto.
  - unfold ld_set. destruct g as [|x|v|]; cbn; auto. destruct (negs v); auto.
  - unfold tk_set. destruct g as [[v|G]|]; cbn; auto. destruct (negs v); auto.
  - unfold td_set. destruct g as [l|]; cbn; auto. destruct (mapM td_one l); auto.
  - unfold ts_set, ts_max. rewrite H. destruct n; cbn; auto. Qed.

(* ---- the entries of the learned operators can be replaced ------------------------------------------------------------------ *)
Lemma wf_rows r m e : wf_op r m e -> op_rows e = r.
Proof. destruct e; cbn; try (intros []; auto); auto. Qed.
Lemma wf_inputs r m e : 0 < r -> wf_op r m e -> has_inputs (cls_of e) = true -> op_inputs e = m.
Proof. intros Hr Hw Ht. destruct e; cbn in *; try discriminate.
  - apply (ncols_is_mat r m B Hw Hr).
  - rewrite (ncols_is_mat r (r * m) N Hw Hr), (is_mat_nrows _ _ _ Hw), Nat.mul_comm, Nat.div_mul by lia. auto. Qed.
Lemma replace_inv d r m l : sinv d -> 0 < r -> (m_hasin d = true -> 0 < m) -> m_r d = Some r -> m_m d = Some m -> candidate r m d l -> sinv (with_ops l d).
Proof. intros HI Hr Hm Er Em HC. assert (Hcls := candidate_cls r m d l HI HC).
  destruct HC as (HL & HK & HIn).
  assert (HE : forall o, In o l -> (In o (m_ops d) \/ exists e, mo_ent o = Some e /\ cls_of e = mo_cls o /\ wf_op r m e)).
  { intros o Ho. apply In_nth_error in Ho. destruct Ho as [i E]. assert (Hi : i < length (m_ops d)) by (rewrite <- HL; apply nth_error_Some; congruence).
    apply (sinv_in d i HI) in Hi. destruct Hi as [Hi|Hi].
    - right. destruct (HIn i Hi) as (o1 & e & E1 & E2 & E3 & E4). rewrite E in E2. injection E2 as ->. exists e. auto.
    - left. rewrite HK in E by auto. eapply nth_error_In; eauto. }
  assert (HT : existsb takes_input l = existsb takes_input (m_ops d)) by (apply existsb_cls; auto).
  destruct HI. constructor; cbn [with_ops m_ops m_infer m_known m_hasin m_r m_m m_intrusive]; auto.
  - destruct l; [|congruence]. destruct (m_ops d); [congruence|discriminate].
  - intros o Ho e Ee. destruct (HE o Ho) as [Hx|(e' & E' & Hc & Hw)]; [apply (si_valid o Hx); auto|]. rewrite Ee in E'. injection E' as <-. split; auto.
    destruct (has_inputs (cls_of e)) eqn:Et.
    + exists r, m. split; auto. split; auto. apply Hm. rewrite si_hasin, <- HT. apply existsb_exists. exists o. split; auto. unfold takes_input. congruence.
    + exists r, 1. split; auto. split; auto. eapply wf_noinput; eauto.
  - congruence.
  - rewrite HL. auto.
  - intros i Hi. rewrite HK by auto. auto.
  - intros i j o o' Hi Hj Eo Eo' Hc. destruct (HIn i Hi) as (o1 & e1 & E1 & E2 & _). destruct (HIn j Hj) as (o2 & e2 & E3 & E4 & _).
    apply (si_dup i j o1 o2); auto. rewrite Eo in E2. rewrite Eo' in E4. injection E2 as ->. injection E4 as ->. exact Hc.
  - intros e He. apply in_entries_of in He. destruct He as (o & Ho & Ee). destruct (HE o Ho) as [Hx|(e' & E' & Hc & Hw)].
    + apply si_r. apply in_entries_of. eauto.
    + rewrite Ee in E'. injection E' as <-. rewrite (wf_rows _ _ _ Hw). auto.
  - intros o e Ho Ht Ee. destruct (HE o Ho) as [Hx|(e' & E' & Hc & Hw)]; [apply (si_m o); auto|].
    rewrite Ee in E'. injection E' as <-. rewrite (wf_inputs r m e); auto. unfold takes_input in Ht. congruence. Qed.

(* ---- the invariant ----------------------------------------------------------------------------------------------------------- *)
Definition allcal (d : model) : Prop := forall o, In o (m_ops d) -> uncal o = false.
Record minv (X : lsx) (d : model) : Prop := {
  mi_s : sinv d;
  mi_fr : m_frozen d = true -> m_solver d = None;
  mi_w : forall s, m_solver d = Some s -> winv X s;
  (* a trained model's solver has no data or data of the present dimensions *)
  mi_t : allcal d -> m_infer d <> [] -> forall s, m_solver d = Some s -> nodata s \/
         exists D Z r m, clean X s D Z /\ m_r d = Some r /\ m_m d = Some m /\ nrows Z = r /\ ncols D = lsumn (map (wd r m (m_ops d)) (m_infer d)) }.

Lemma trained_allcal d : check_trained d = Ok tt -> allcal d.
Proof. unfold check_trained, allcal. destruct (m_r d); [|discriminate]. destruct (m_hasin d && _); [discriminate|].
  destruct (existsb uncal (m_ops d)) eqn:E; [discriminate|]. intros _ o Ho. destruct (uncal o) eqn:Eo; auto.
  assert (existsb uncal (m_ops d) = true) by (apply existsb_exists; eauto). congruence. Qed.
(* a model all of whose operators have entries knows its dimensions *)
Lemma allcal_dims d : sinv d -> allcal d -> exists r m, 0 < r /\ m_r d = Some r /\ m_m d = Some m /\ (m_hasin d = true -> 0 < m) /\ Forall (sized r m) (m_ops d).
Proof. intros HI HA.
  assert (HE : forall o, In o (m_ops d) -> exists e, mo_ent o = Some e). { intros o Ho. specialize (HA o Ho). unfold uncal in HA. destruct (mo_ent o); [eauto|discriminate]. }
  assert (Hr : exists r, 0 < r /\ m_r d = Some r).
  { destruct (m_ops d) as [|o l] eqn:El; [destruct (si_ne d HI); auto|]. destruct (HE o (or_introl eq_refl)) as (e & Ee). exists (op_rows e).
    assert (Ho : In o (m_ops d)) by (rewrite El; left; auto). split.
    - destruct (si_valid d HI o Ho e Ee) as (_ & r & m & Hr & Hm & Hw). rewrite (wf_rows _ _ _ Hw). auto.
    - apply (si_r d HI). apply in_entries_of. eauto. }
  destruct Hr as (r & Hr & Er).
  assert (Hm : exists m, m_m d = Some m /\ (m_hasin d = true -> 0 < m)).
  { destruct (m_hasin d) eqn:Eh; [|exists 0; split; [apply (si_noin d HI); auto|discriminate]].
    assert (Ex := Eh). rewrite (si_hasin d HI) in Ex. apply existsb_exists in Ex. destruct Ex as (o & Ho & Ht). destruct (HE o Ho) as (e & Ee).
    exists (op_inputs e). split; [apply (si_m d HI o e); auto|]. intros _. eapply valid_inputs_pos; eauto. apply (si_valid d HI o Ho). }
  destruct Hm as (m & Em & Hm). exists r, m. repeat (split; auto). apply Forall_forall. intros o Ho. destruct (HE o Ho) as (e & Ee). exists e. split; auto.
  destruct (valid_wf o e m (si_valid d HI o Ho) Ee) as (_ & Hc & Hw). { intros Ht. assert (Hx := si_m d HI o e Ho Ht Ee). congruence. }
  split; auto. assert (Hx : m_r d = Some (op_rows e)) by (apply (si_r d HI), in_entries_of; eauto). assert (Hy : r = op_rows e) by congruence. rewrite Hy. auto. Qed.
Lemma allcal_trained d : sinv d -> allcal d -> check_trained d = Ok tt.
Proof. intros HI HA. destruct (allcal_dims d HI HA) as (r & m & _ & Er & Em & _ & HF). eapply trained_sized; eauto. congruence. Qed.
Lemma cleared_untrained d : sinv d -> cleared d -> m_infer d <> [] -> ~ allcal d.
Proof. intros HI HC Hne HA. destruct (m_infer d) as [|i l] eqn:E; [congruence|]. assert (Hi : In i (m_infer d)) by (rewrite E; left; auto).
  destruct (nth_error (m_ops d) i) as [o|] eqn:Eo. 2:{ apply nth_error_None in Eo. assert (Hx := sinv_lt d i HI Hi). lia. }
  assert (Hx := HC i o Hi Eo). specialize (HA o (nth_error_In _ _ Eo)). unfold uncal in HA. rewrite Hx in HA. discriminate. Qed.

Lemma set_operators_minv X args d d' : Forall valid_arg args -> (forall s, m_solver d = Some s -> winv X s) -> (m_frozen d = true -> m_solver d = None) ->
  set_operators args d = (d', Ok tt) -> minv X d'.
Proof. intros HV HW HF E. destruct (set_operators_inv args d d' HV E) as (H1 & H2 & H3 & H4 & H5 & H6 & _). constructor; auto.
  - rewrite H2, H3. auto.
  - rewrite H2. auto.
  - intros HA Hne. exfalso. apply Hne. rewrite H6. destruct (indices uncal (m_ops d')) as [|i l] eqn:Ei; auto.
    assert (Hi : In i (indices uncal (m_ops d'))) by (rewrite Ei; left; auto). apply in_indices in Hi. destruct Hi as (o & Eo & Hu).
    specialize (HA o (nth_error_In _ _ Eo)). congruence. Qed.

Lemma with_solver_sinv d s : sinv d -> sinv (with_solver s d).
Proof. intros H. destruct H. constructor; auto. Qed.
Lemma set_solver_minv X a d d' x : minv X d -> valid_solver (x_lsvd X) a -> set_solver a d = (d', x) -> minv X d'.
Proof. intros H HV E. unfold set_solver in E. destruct (m_frozen d) eqn:Ef; [injection E as <- <-; auto|].
  assert (HN : forall s, winv X s -> nodata s -> minv X (with_solver (Some s) d)).
  { intros s W N. destruct H. constructor; cbn; auto.
    - apply with_solver_sinv; auto.
    - congruence.
    - intros ? [= <-]; auto.
    - intros _ _ ? [= <-]. auto. }
  destruct (m_intrusive d) eqn:Ei.
  { injection E as <- <-. destruct H. constructor; cbn; auto; try discriminate. apply with_solver_sinv; auto. }
  destruct a as [|z|s|].
  - injection E as <- <-. apply HN; [exact I|reflexivity].
  - destruct (Req_EM_T z 0); [injection E as <- <-; apply HN; [exact I|reflexivity]|].
    destruct (Rlt_dec 0 z); injection E as <- <-; auto. apply HN; [apply new_l2_winv; auto|reflexivity].
  - injection E as <- <-. apply HN; [apply fresh_winv; exact HV|eapply fresh_nodata; exact HV].
  - injection E as <- <-. auto. Qed.

Lemma set_r_minv X r d d' x : minv X d -> set_state_dimension r d = (d', x) -> minv X d'.
Proof. intros H E. destruct (set_r_inv r d d' x (mi_s X d H) E) as (H1 & H2 & H3). destruct x as [[]|e]; [|rewrite H3 by discriminate; auto].
  destruct (H2 eq_refl) as (_ & ->). destruct H. constructor; cbn; auto. intros HA Hne s Es. destruct (mi_t0 HA Hne s Es) as [Hn|(D & Z & r0 & m & H4 & Er & H5)]; auto.
  right. exists D, Z, r0, m. split; auto. split; auto. destruct (allcal_dims _ H1 HA) as (r1 & m1 & _ & Er1 & _ & _ & HF). cbn in Er1, HF.
  destruct (allcal_dims _ mi_s0 HA) as (r2 & m2 & _ & Er2 & _ & _ & HF2). assert (Hn := si_ne d mi_s0). destruct (m_ops d) as [|o l]; [congruence|].
  inversion HF as [|? ? (e & Ee & _ & Hw)]; inversion HF2 as [|? ? (e' & Ee' & _ & Hw')]; subst. rewrite Ee in Ee'. injection Ee' as <-.
  apply wf_rows in Hw, Hw'. congruence. Qed.
Lemma set_m_minv X m d d' x : minv X d -> set_input_dimension m d = (d', x) -> minv X d'.
Proof. intros H E. destruct (set_m_inv m d d' x (mi_s X d H) E) as (H1 & H2 & H3). destruct x as [[]|e]; [|rewrite H3 by discriminate; auto].
  destruct (H2 eq_refl) as (_ & ->). destruct H. constructor; cbn; auto. intros HA Hne s Es. destruct (mi_t0 HA Hne s Es) as [Hn|(D & Z & r0 & m0 & H4 & Er & Em & H5)]; auto.
  right. exists D, Z, r0, m0. split; auto. split; auto. split; auto.
  destruct (m_hasin d) eqn:Eh.
  - assert (Ex := Eh). rewrite (si_hasin d mi_s0) in Ex. apply existsb_exists in Ex. destruct Ex as (o & Ho & Ht). specialize (HA o Ho). cbn in HA.
    unfold uncal in HA. destruct (mo_ent o) as [e|] eqn:Ee; [|discriminate]. assert (A := si_m d mi_s0 o e Ho Ht Ee). assert (B := si_m _ H1 o e Ho Ht Ee). cbn in B. congruence.
  - assert (A := si_noin d mi_s0 Eh). assert (B := si_noin _ H1 Eh). cbn in B. congruence. Qed.
Lemma setreg_minv X g d d' x : minv X d -> valid_reg g -> set_regularizer g d = (d', x) -> x = Ok tt -> minv X d'.
Proof. intros H HG E ->. unfold set_regularizer in E. destruct (m_solver d) as [s|] eqn:Es; [|discriminate].
  destruct (lsq_setreg s g) as [s' x] eqn:EG. injection E as <- ->. destruct H. assert (W := mi_w0 s Es). constructor; cbn; auto.
  - apply with_solver_sinv; auto.
  - intros Hf. rewrite (mi_fr0 Hf) in Es. discriminate.
  - intros ? [= <-]. assert (Hx := lsq_setreg_winv X s g W HG). rewrite EG in Hx. exact Hx.
  - intros HA Hne ? [= <-]. destruct (mi_t0 HA Hne s Es) as [Hn|(D & Z & r0 & m & H4 & H5)].
    + left. assert (Hx := nodata_setreg s g Hn). rewrite EG in Hx. exact Hx.
    + right. exists D, Z, r0, m. split; auto. eapply lsq_setreg_clean; eauto. Qed.

Lemma extract_candidate d r m O : sinv d -> 0 < r -> is_mat r (lsumn (map (wd r m (m_ops d)) (m_infer d))) O ->
  exists l, extract (Some r) (Some m) O 0 (m_infer d) (m_ops d) = (l, Ok tt) /\ candidate r m d l.
Proof. intros HI Hr HO. destruct (extract_ok r m O _ Hr HO (m_infer d) 0 (m_ops d)) as (l & es & E1 & E2 & E3 & E4 & E5).
  { apply sinv_infer_nodup; auto. } { intros; eapply sinv_lt; eauto. } { cbn. lia. }
  exists l. split; auto. split; auto. split. { intros i Hi. apply E3. intros Hx. eapply sinv_disj; eauto. }
  intros i Hi. clear - E4 Hi. induction E4 as [|a e ix es (o & Eo & En & Hc & Hw) E4 IH]; [destruct Hi|]. destruct Hi as [<-|Hi]; auto. exists o, e. auto. Qed.

Lemma refit_minv X d d' x : lsx_ok X -> minv X d -> check_trained d = Ok tt -> refit X d = (d', x) -> minv X d'.
Proof. intros HX H HT E. assert (HI := mi_s X d H). assert (HA := trained_allcal d HT). unfold refit in E.
  destruct (m_intrusive d) eqn:Ei; [injection E as <- <-; auto|]. destruct (m_solver d) as [s|] eqn:Es; [|injection E as <- <-; auto].
  assert (Hne : m_infer d <> []). { rewrite (si_intr d HI) in Ei. intros Hx. rewrite Hx in Ei. discriminate. }
  destruct (mi_t X d H HA Hne s Es) as [Hn|(D & Z & r & m & HC & Er & Em & HZ & HD)].
  { destruct (nodata_solve X s Hn) as (e & Ee). rewrite Ee in E. injection E as <- <-. auto. }
  destruct (lsq_solve X s) as [O|e] eqn:EO; [|injection E as <- <-; auto].
  destruct (lsq_solve_clean X s D Z O HX HC EO) as (HO & _). rewrite HZ, HD in HO.
  destruct (allcal_dims d HI HA) as (r1 & m1 & Hr & Er1 & Em1 & Hm & _). rewrite Er in Er1. rewrite Em in Em1. injection Er1 as <-. injection Em1 as <-.
  rewrite Er, Em in E. destruct (extract_candidate d r m O HI Hr HO) as (l & El & HCand). rewrite El in E. injection E as <- <-.
  assert (Hcls := candidate_cls r m d l HI HCand).
  destruct H. constructor; cbn; auto.
  - apply (replace_inv d r m l); auto.
  - intros _ _ s' Es'. rewrite Es in Es'. injection Es' as <-. right. exists D, Z, r, m. repeat (split; auto). rewrite HD. unfold lsumn. f_equal. apply map_ext. intros a. apply wd_cls; auto. Qed.

Lemma fit_minv X d states lhs inputs d' x : lsx_ok X -> minv X d -> good_arr states -> good_arr lhs -> valid_in inputs ->
  fit X d states lhs inputs = (d', x) -> minv X d'.
Proof. intros HX H G1 G2 G3 E. assert (HI := mi_s X d H). unfold fit in E. destruct (m_frozen d) eqn:Ef; [injection E as <- <-; auto|].
  destruct (m_intrusive d) eqn:Ei; [injection E as <- <-; auto|].
  assert (Hne : m_infer d <> []). { rewrite (si_intr d HI) in Ei. intros Hx. rewrite Hx in Ei. discriminate. }
  destruct (fit_solver X d states lhs inputs) as [d1 x1] eqn:EF.
  destruct (fit_solver_inv X d states lhs inputs d1 x1 HX HI Ef Ei (mi_w X d H) G1 G2 G3 EF) as (H1 & F1 & C1 & W1 & Hok).
  assert (Hne1 : m_infer d1 <> []). { destruct F1 as (_ & _ & F3 & _). rewrite F3. exact Hne. }
  assert (Hfr1 : m_frozen d1 = false). { destruct F1 as (_ & F2 & _). rewrite F2. exact Ef. }
  assert (M1 : minv X d1).
  { constructor; auto; [congruence|]. intros HA. exfalso. eapply cleared_untrained; eauto. }
  destruct x1 as [[]|e]; cbn [seqm] in E; [|injection E as <- <-; exact M1].
  destruct (Hok eq_refl) as (_ & r & m & k & U & HFt). clear Hok.
  destruct (refit_inv X d1 d' x _ _ _ _ _ _ _ HX HFt E) as [Hbad Hgood]. destruct x as [[]|e].
  2:{ destruct Hbad as [-> _]; [discriminate|]. exact M1. }
  destruct (Hgood eq_refl) as (s & O & l & Es & EO & -> & HC & EOm & HO & _).
  assert (HI' := candidate_inv _ _ _ _ _ _ _ _ _ l HFt HC). assert (Hcls := candidate_cls r m d1 l H1 HC).
  constructor; cbn; auto; [congruence|]. intros HA _ s' Es'. right. rewrite Es in Es'. injection Es' as <-.
  destruct (ft_solver _ _ _ _ _ _ _ _ _ HFt) as (s2 & L & Es2 & _ & HCl & HL & _). rewrite Es in Es2. injection Es2 as <-.
  assert (Emm : exists mm, m_m d1 = Some mm).
  { destruct (m_hasin d1) eqn:Eh; [destruct (ft_in _ _ _ _ _ _ _ _ _ HFt Eh) as [? _]; eauto|exists 0; apply (ft_noin _ _ _ _ _ _ _ _ _ HFt Eh)]. }
  destruct Emm as [mm Em]. assert (Ew := width_m _ _ _ _ _ _ _ _ _ mm HFt Em).
  eexists _, L, r, mm. split; [exact HCl|]. split; [apply (ft_r _ _ _ _ _ _ _ _ _ HFt)|]. split; auto. split; [apply (is_mat_nrows _ _ _ HL)|].
  destruct (ft_dims _ _ _ _ _ _ _ _ _ HFt) as (Hr & Hm & Hk). destruct (ft_data _ _ _ _ _ _ _ _ _ HFt) as (HQ & HZ & HU).
  assert (HB := dblocks r m k _ U (m_ops d1) (m_infer d1) Hr Hm HQ HU (fun a => sinv_lt _ a H1)).
  assert (HD := is_mat_hstack k _ _ HB ltac:(destruct (m_infer d1); cbn; congruence)). rewrite (ncols_is_mat _ _ _ HD Hk). unfold lsumn. f_equal. apply map_ext. intros a.
  rewrite <- Ew. apply wd_cls; auto. Qed.

Lemma good_cut k u : 0 < k -> good_arr u -> good_arr (cut k u).
Proof. intros Hk. destruct u as [u|U]; cbn [cut good_arr].
  - intros H. rewrite firstn_length. lia.
  - intros (r & c & Hr & Hc & HU). exists r, (Nat.min k c). split; auto. split; [lia|]. destruct HU as [HL HF]. split; [rewrite map_length; auto|].
    apply Forall_forall. intros row Hrow. apply in_map_iff in Hrow. destruct Hrow as (v & <- & Hv). rewrite Forall_forall in HF. unfold is_vec. rewrite firstn_length. specialize (HF v Hv). unfold is_vec in HF. lia. Qed.
Lemma removelast_length {A} (l : list A) : length (removelast l) = length l - 1.
Proof. induction l as [|a [|b l] IH]; auto. change (removelast (a :: b :: l)) with (a :: removelast (b :: l)). cbn [length] in *. lia. Qed.
Lemma is_mat_removelast r k Q : is_mat r k Q -> is_mat r (k - 1) (map (@removelast R) Q).
Proof. intros [HL HF]. split; [rewrite map_length; auto|]. apply Forall_forall. intros row Hrow. apply in_map_iff in Hrow. destruct Hrow as (v & <- & Hv).
  rewrite Forall_forall in HF. specialize (HF v Hv). unfold is_vec in *. rewrite removelast_length. lia. Qed.
Lemma is_mat_tl r k Q : is_mat r k Q -> is_mat r (k - 1) (map (@tl R) Q).
Proof. intros [HL HF]. split; [rewrite map_length; auto|]. apply Forall_forall. intros row Hrow. apply in_map_iff in Hrow. destruct Hrow as (v & <- & Hv).
  rewrite Forall_forall in HF. specialize (HF v Hv). unfold is_vec in *. destruct v; cbn in *; lia. Qed.

Lemma dfit_minv X d states next inputs d' x : lsx_ok X -> minv X d -> valid_event (x_lsvd X) (EDFit states next inputs) ->
  discrete_fit X d states next inputs = (d', x) -> minv X d'.
Proof. intros HX H (HV1 & HV2 & HV3) E. unfold discrete_fit in E. destruct (m_frozen d); [injection E as <- <-; auto|].
  destruct next as [n|].
  - destruct inputs as [u|]. 2:{ exact (fit_minv X d states n None d' x HX H HV1 HV2 I E). }
    destruct states as [v|Q]; [injection E as <- <-; auto|]. refine (fit_minv X d (M Q) n _ d' x HX H HV1 HV2 _ E). cbn [valid_in].
    destruct HV1 as (r & k & Hr & Hk & HQ). apply good_cut; auto. rewrite (ncols_is_mat r k Q HQ Hr). auto.
  - destruct states as [v|Q]; [injection E as <- <-; auto|]. destruct HV1 as (r & k & Hr & Hk & HQ).
    assert (G1 : good_arr (M (map (@removelast R) Q))). { exists r, (k - 1). split; auto. split; [lia|]. apply is_mat_removelast; auto. }
    assert (G2 : good_arr (M (map (@tl R) Q))). { exists r, (k - 1). split; auto. split; [lia|]. apply is_mat_tl; auto. }
    destruct inputs as [u|]; [|exact (fit_minv X d _ _ None d' x HX H G1 G2 I E)]. refine (fit_minv X d _ _ _ d' x HX H G1 G2 _ E). cbn [valid_in].
    apply good_cut; auto. rewrite (ncols_is_mat r (k - 1) _ (is_mat_removelast _ _ _ HQ) Hr). lia. Qed.

Theorem reach_minv X d : lsx_ok X -> reach X d -> minv X d.
Proof. intros HX H. induction H as [k fr args a d HV HS E|d ev d' x H IH HV E HO].
  - unfold mk_model in E. destruct (set_operators args (blank k fr)) as [d1 x1] eqn:E1. destruct x1 as [[]|]; [|discriminate]. cbn [seqm] in E.
    assert (M1 : minv X d1). { eapply set_operators_minv; eauto; cbn; auto; discriminate. }
    destruct (set_solver a d1) as [d2 x2] eqn:E2. destruct x2; [|discriminate]. injection E as <-. eapply set_solver_minv; eauto.
  - destruct ev; cbn [mstep valid_event orderly] in *.
    + subst x. eapply set_operators_minv; eauto; apply IH.
    + eapply set_solver_minv; eauto.
    + eapply setreg_minv; eauto.
    + eapply set_r_minv; eauto.
    + eapply set_m_minv; eauto.
    + destruct HV as (G1 & G2 & G3). exact (fit_minv X d _ _ _ d' x HX IH G1 G2 G3 E).
    + exact (dfit_minv X d _ _ _ d' x HX IH HV E).
    + eapply refit_minv; eauto. Qed.

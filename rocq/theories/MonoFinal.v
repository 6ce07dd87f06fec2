(* MonoFinal.v -- the statements about fitting models. *)
From Coq Require Import ZArith String.
From Verif Require Import SolverCond.
From Verif Require Export MonoEq.
#[local] Open Scope nat_scope.

Lemma op_width_wd d r m i : op_width d r m i = wd r m (m_ops d) i.
Proof. unfold op_width, wd. destruct (nth_error (m_ops d) i); auto. symmetry. apply opdim_width. Qed.

(* the blocks of at_cols, one by one *)
Lemma at_cols_get r m O dd l es : is_mat r dd O -> forall ix idx, idx + lsumn (map (wd r m l) ix) <= dd -> at_cols r m O idx ix l es ->
  forall pre i post, ix = pre ++ i :: post -> exists e, nth_error es (length pre) = Some e /\ is_mat r (wd r m l i) (entries2 e) /\
    forall a b, a < r -> b < wd r m l i -> mget (entries2 e) a b = mget O a (idx + lsumn (map (wd r m l) pre) + b).
Proof. intros HO. revert es. induction es as [|e es IH]; intros ix idx Hle HA pre i post ->; [destruct pre; destruct HA|].
  destruct pre as [|p pre]; cbn [app at_cols] in HA; destruct HA as [H1 H2]; cbn [app map] in Hle.
  - change (lsumn (?a :: ?l)) with (a + lsumn l) in Hle. exists e. split; auto. rewrite H1. split. { assert (HH := is_mat_mcols r dd idx (idx + wd r m l i) O HO ltac:(lia) ltac:(lia)). replace (idx + wd r m l i - idx) with (wd r m l i) in HH by lia. exact HH. }
    intros a b Ha Hb. rewrite (mget_mcols r dd) by (auto; lia). f_equal. cbn. lia.
  - change (lsumn (wd r m l p :: map (wd r m l) (pre ++ i :: post))) with (wd r m l p + lsumn (map (wd r m l) (pre ++ i :: post))) in Hle.
    destruct (IH (pre ++ i :: post) (idx + wd r m l p) ltac:(lia) H2 pre i post eq_refl) as (e' & E1 & E2 & E3). exists e'. split; auto. split; auto.
    intros a b Ha Hb. rewrite E3 by auto. f_equal. cbn [map]. change (lsumn (wd r m l p :: map (wd r m l) pre)) with (wd r m l p + lsumn (map (wd r m l) pre)). lia. Qed.

Lemma extract_distributed d r m O : sinv d -> 0 < r -> m_infer d <> [] -> m_r d = Some r -> m_m d = Some m -> is_mat r (lsumn (map (wd r m (m_ops d)) (m_infer d))) O ->
  exists l, extract (Some r) (Some m) O 0 (m_infer d) (m_ops d) = (l, Ok tt) /\ candidate r m d l /\ distributed (with_ops l d) r m O /\ opmat l (m_infer d) = O.
Proof. intros HI Hr Hne Er Em HO. destruct (extract_ok r m O _ Hr HO (m_infer d) 0 (m_ops d)) as (l & es & E1 & E2 & E3 & E4 & E5).
  { apply sinv_infer_nodup; auto. } { intros; eapply sinv_lt; eauto. } { cbn. lia. }
  exists l. split; auto.
  assert (HC : candidate r m d l).
  { split; auto. split. { intros i Hi. apply E3. intros Hx. eapply sinv_disj; eauto. }
    intros i Hi. clear - E4 Hi. induction E4 as [|a e ix es (o & Eo & En & Hc & Hw) E4 IH]; [destruct Hi|]. destruct Hi as [<-|Hi]; auto. exists o, e. auto. }
  split; auto. assert (Hcls := candidate_cls r m d l HI HC).
  assert (EW : forall i, op_width (with_ops l d) r m i = wd r m (m_ops d) i). { intros i. rewrite op_width_wd. cbn. apply wd_cls; auto. }
  split. split.
  - cbn [with_ops m_infer]. rewrite (map_ext _ _ EW). auto.
  - intros pre i post Ei. cbn [with_ops m_infer m_ops] in *.
    destruct (at_cols_get r m O _ (m_ops d) es HO (m_infer d) 0 ltac:(cbn; lia) E5 pre i post Ei) as (e & Ee & HM & HV).
    assert (Hent : exists o, ent_at (m_ops d) r m i o e l).
    { rewrite Ei in E4. clear - E4 Ee. revert es E4 Ee. induction pre as [|p pre IH]; intros es E4 Ee; cbn in *; inversion E4; subst; cbn in Ee; [injection Ee as <-; auto|eauto]. }
    destruct Hent as (o & Eo & En & Hc & Hw). eexists _, e. split; [exact En|]. cbn [mo_ent mo_cls]. split; auto. split; auto. split. { rewrite EW. auto. }
    intros a b Ha Hb. rewrite EW in Hb. rewrite (map_ext _ _ EW). apply HV; auto.
  - assert (Hes : Forall2 (fun a e => exists o, nth_error l a = Some o /\ mo_ent o = Some e /\ cls_of e = mo_cls o /\ wf_op r m e) (m_infer d) es).
    { clear - E4. induction E4 as [|a e ix es (o & Eo & En & Hc & Hw) E4 IH]; constructor; auto. eexists. split; [exact En|]. auto. }
    rewrite (opmat_es r m l _ es Hes). rewrite (at_cols_hstack r m O _ HO (m_infer d) 0 (m_ops d) es Hne ltac:(cbn; lia) E5). cbn [Nat.add]. apply (mcols_all r); auto. Qed.

Lemma candidate_roles r m d l : sinv d -> candidate r m d l -> same_roles d (with_ops l d).
Proof. intros HI HC. unfold same_roles. cbn. repeat (split; auto). apply (candidate_cls r m); auto. destruct HC as (_ & H & _). exact H. Qed.
Lemma roles_trans a b c : same_roles a b -> same_roles b c -> same_roles a c.
Proof. intros (A1 & A2 & A3 & A4 & A5 & A6) (B1 & B2 & B3 & B4 & B5 & B6). unfold same_roles. repeat (split; [congruence|]). intros i Hi. rewrite B6 by congruence. auto. Qed.
Lemma frame_roles d d' : frame d d' -> same_roles d d'.
Proof. intros (A1 & A2 & A3 & A4 & A5 & A6 & A7 & A8 & A9 & A10). unfold same_roles. repeat (split; auto). apply nth_error_map_ext; auto.
  intros i o o' E E'. destruct (A10 i o' E') as (o2 & E2 & Hc). congruence. Qed.

(* ---- C27 ---- *)
Lemma candidate_opmatrix_t d r m l : m_infer d <> [] -> m_r d = Some r -> (m_hasin d = true -> m_m d <> None) -> Forall (sized r m) l -> candidate r m d l ->
  operator_matrix (with_ops l d) = Ok (opmat l (m_infer d)).
Proof. intros Hne Er Hm HF HC. unfold operator_matrix. rewrite (trained_sized (with_ops l d) r m); auto. cbn [bind with_ops m_ops m_infer]. destruct (candidate_es r m d l HC) as (es & Hes).
  assert (Hes2 : Forall2 (fun a e => exists o, nth_error l a = Some o /\ mo_ent o = Some e) (m_infer d) es).
  { clear - Hes. induction Hes as [|a e ix es (o & Eo & Ee & _) H IH]; constructor; eauto. }
  rewrite (opmat_ok l (m_infer d) es Hes2). cbn [bind]. rewrite (opmat_es r m l _ es Hes). inversion Hes; subst; [congruence|]. reflexivity. Qed.

Lemma fitted_mm X d r m k Q Z U inputs : fitted X d r m k Q Z U inputs -> exists mm, m_m d = Some mm.
Proof. intros H. destruct (m_hasin d) eqn:Eh; [destruct (ft_in _ _ _ _ _ _ _ _ _ H Eh) as [? _]; eauto|exists 0; apply (ft_noin _ _ _ _ _ _ _ _ _ H Eh)]. Qed.

Lemma fitted_refit_layout X d d' r m k Q Z U inputs : lsx_ok X -> fitted X d r m k Q Z U inputs -> refit X d = (d', Ok tt) ->
  exists mm s O, m_r d' = Some r /\ m_m d' = Some mm /\ m_solver d' = Some s /\ lsq_solve X s = Ok O /\ distributed d' r mm O /\ operator_matrix d' = Ok O /\ same_roles d d'.
Proof. intros HX H E. destruct (fitted_mm _ _ _ _ _ _ _ _ _ H) as [mm Em]. assert (HI := ft_inv _ _ _ _ _ _ _ _ _ H). assert (Hne := ft_ne _ _ _ _ _ _ _ _ _ H).
  destruct (ft_dims _ _ _ _ _ _ _ _ _ H) as (Hr & Hm & Hk). assert (Er := ft_r _ _ _ _ _ _ _ _ _ H).
  destruct (refit_inv X d d' (Ok tt) r m k Q Z U inputs HX H E) as [_ HR]. destruct (HR eq_refl) as (s & O & l & Es & EO & -> & HC & EOm & HO & _).
  exists mm, s, O. cbn [with_ops m_r m_m m_solver]. split; auto. split; auto. split; auto. split; auto. split; [|split].
  - rewrite <- (map_ext _ _ (width_m _ _ _ _ _ _ _ _ _ mm H Em)) in HO.
    destruct (extract_distributed d r mm O HI Hr Hne Er Em HO) as (l' & E1 & _ & HD & _).
    unfold refit in E. destruct (m_intrusive d) eqn:Ei. { rewrite (si_intr d HI) in Ei. destruct (m_infer d); [congruence|discriminate]. }
    rewrite Es, EO, Er, Em, E1 in E. assert (l' = l) as <-; [|exact HD]. injection E as E. exact E.
  - rewrite (candidate_opmatrix _ _ _ _ _ _ _ _ _ l H HC). congruence.
  - apply (candidate_roles r m); auto. Qed.

Lemma sframe_roles d d' : sframe d d' -> same_roles d d'.
Proof. intros H. apply frame_roles in H. exact H. Qed.

Lemma fit_ok_fitted X d states lhs inputs d' : lsx_ok X -> minv X d -> m_intrusive d = false -> good_arr states -> good_arr lhs -> valid_in inputs ->
  fit X d states lhs inputs = (d', Ok tt) ->
  exists d1 r m k U, same_roles d d1 /\ samepen d d1 /\ m_frozen d = false /\ fitted X d1 r m k (atleast_2d states) (atleast_2d lhs) U inputs /\ refit X d1 = (d', Ok tt) /\
    (forall s', m_solver d1 = Some s' -> exists s, m_solver d = Some s).
Proof. intros HX H Hi G1 G2 G3 E. unfold fit in E. destruct (m_frozen d) eqn:Ef; [discriminate|]. rewrite Hi in E.
  destruct (fit_solver X d states lhs inputs) as [d1 x1] eqn:EF.
  destruct (fit_solver_inv X d states lhs inputs d1 x1 HX (mi_s X d H) Ef Hi (mi_w X d H) G1 G2 G3 EF) as (H1 & F1 & C1 & W1 & Hok).
  destruct x1 as [[]|e]; cbn [seqm] in E; [|discriminate]. destruct (Hok eq_refl) as (HP & r & m & k & U & HFt).
  exists d1, r, m, k, U. split; [apply sframe_roles; auto|]. repeat (split; auto). intros s' Es'. unfold fit_solver in EF.
  destruct (process_fit d states lhs inputs) as [d2 x2] eqn:EP. destruct (process_fit_inv _ _ _ _ _ _ (mi_s X d H) Ef EP) as ((_ & F2 & _) & _).
  destruct x2 as [[[Q L] U2]|]; [|discriminate]. cbn [seqm] in EF. destruct (assemble d2 Q U2); [|discriminate]. destruct (m_solver d2) as [s|] eqn:Es; [|discriminate].
  exists s. destruct F2 as (_ & _ & _ & _ & _ & _ & F & _). congruence. Qed.

Theorem fit_layout X d states lhs inputs d' : lsx_ok X -> reach X d -> m_intrusive d = false -> good_arr states -> good_arr lhs -> valid_in inputs ->
  fit X d states lhs inputs = (d', Ok tt) ->
  exists r m s O, m_r d' = Some r /\ m_m d' = Some m /\ m_solver d' = Some s /\ lsq_solve X s = Ok O /\ distributed d' r m O /\ operator_matrix d' = Ok O /\ same_roles d d'.
Proof. intros HX HR Hi G1 G2 G3 E. destruct (fit_ok_fitted X d states lhs inputs d' HX (reach_minv X d HX HR) Hi G1 G2 G3 E) as (d1 & r & m & k & U & HRl & _ & _ & HFt & ER & _).
  destruct (fitted_refit_layout _ _ _ _ _ _ _ _ _ _ HX HFt ER) as (mm & s & O & A1 & A2 & A3 & A4 & A5 & A6 & A7). exists r, mm, s, O. split; auto. split; auto. split; auto. split; auto. split; auto. split; auto. eapply roles_trans; eauto. Qed.
Theorem refit_layout X d d' : lsx_ok X -> reach X d -> m_intrusive d = false -> check_trained d = Ok tt -> refit X d = (d', Ok tt) ->
  exists r m s O, m_r d' = Some r /\ m_m d' = Some m /\ m_solver d' = Some s /\ lsq_solve X s = Ok O /\ distributed d' r m O /\ operator_matrix d' = Ok O /\ same_roles d d'.
Proof. intros HX HR Hi HT E. assert (H := reach_minv X d HX HR). assert (HI := mi_s X d H). assert (HA := trained_allcal d HT). unfold refit in E. rewrite Hi in E.
  destruct (m_solver d) as [s|] eqn:Es; [|discriminate].
  assert (Hne : m_infer d <> []). { rewrite (si_intr d HI) in Hi. intros Hx. rewrite Hx in Hi. discriminate. }
  destruct (lsq_solve X s) as [O|e] eqn:EO; [|discriminate].
  destruct (mi_t X d H HA Hne s Es) as [Hn|(D & Z & r & m & HC & Er & Em & HZ & HD)].
  { destruct (nodata_solve X s Hn) as (e & Ee). congruence. }
  destruct (lsq_solve_clean X s D Z O HX HC EO) as (HO & _). rewrite HZ, HD in HO.
  destruct (allcal_dims d HI HA) as (r1 & m1 & Hr & Er1 & Em1 & Hm & _). rewrite Er in Er1. rewrite Em in Em1. injection Er1 as <-. injection Em1 as <-.
  rewrite Er, Em in E. destruct (extract_distributed d r m O HI Hr Hne Er Em HO) as (l & El & HCand & HDist & HOm). rewrite El in E. injection E as <-.
  exists r, m, s, O. cbn [with_ops m_r m_m m_solver]. split; auto. split; auto. split; auto. split; auto. split; auto. split; [|apply (candidate_roles r m); auto].
  rewrite (candidate_opmatrix_t d r m l); auto. { congruence. } { congruence. }
  apply Forall_forall. intros o Ho. apply In_nth_error in Ho. destruct Ho as [i Ei]. destruct HCand as (HL & HK & HIn).
  assert (Hlt : i < length (m_ops d)) by (rewrite <- HL; apply nth_error_Some; congruence). apply (sinv_in d i HI) in Hlt. destruct Hlt as [Hx|Hx].
  - destruct (HIn i Hx) as (o1 & e & E1 & E2 & E3 & E4). rewrite Ei in E2. injection E2 as ->. exists e. auto.
  - rewrite HK in Ei by auto. destruct (allcal_dims d HI HA) as (r2 & m2 & _ & Er2 & Em2 & _ & HF). assert (r2 = r) by congruence. assert (m2 = m) by congruence. subst. rewrite Forall_forall in HF. apply HF. eapply nth_error_In; eauto. Qed.

(* ---- C28 ---- *)
Lemma candidate_total X d r m k Q Z U inputs l : fitted X d r m k Q Z U inputs -> candidate r m d l -> exists y, residual (with_ops l d) r k Q Z inputs y.
Proof. intros H HC. destruct (ft_solver _ _ _ _ _ _ _ _ _ H) as (s & L & Es & HW & HCl & HL & HLv).
  destruct (candidate_residual _ _ _ _ _ _ _ _ _ l s L H HC Es HCl HLv) as (_ & f & Hf & _). eexists. exists f. split; [exact Hf|reflexivity]. Qed.
Lemma residual_rows d r k Q Z inputs x : residual d r k Q Z inputs x -> exists g, x = bsum r g /\ forall i, residual_row d r k Q Z inputs i (g i).
Proof. intros (f & Hf & ->). exists (fun i => bsum k (fun j => Rsqr (vget (f j) i - mget Z i j))). split; [apply bsum_swap|]. intros i. exists f. auto. Qed.

Lemma candidate_self r m d l : candidate r m d l -> candidate r m (with_ops l d) l.
Proof. intros (A & B & C). split; cbn; auto. split; auto. intros i Hi. destruct (C i Hi) as (o & e & E1 & E2 & E3 & E4).
  exists {| mo_cls := mo_cls o; mo_ent := Some e |}, e. cbn. auto. Qed.
Lemma fitted_best X d d' r m k states lhs U inputs s : lsx_ok X -> fitted X d r m k (atleast_2d states) (atleast_2d lhs) U inputs -> refit X d = (d', Ok tt) ->
  (forall s' w, m_solver d = Some s' -> penalty s' w = penalty s w) -> best X d' s states lhs inputs.
Proof. intros HX H E HS. destruct (refit_minimises X d d' r m k _ _ U inputs HX H E) as (H' & HT & O & EO & HMin).
  destruct (fitted_mm _ _ _ _ _ _ _ _ _ H') as [mm Em]. destruct (ft_dims _ _ _ _ _ _ _ _ _ H') as (Hr & Hm & Hk). destruct (ft_data _ _ _ _ _ _ _ _ _ H') as (HQ & HZ & _).
  exists r, mm, k, O. split; [apply (ft_r _ _ _ _ _ _ _ _ _ H')|]. split; auto. split; auto. split; auto. split; auto. split; auto.
  destruct (refit_inv X d d' (Ok tt) r m k _ _ U inputs HX H E) as [_ HR]. destruct (HR eq_refl) as (s1 & O1 & l0 & Es1 & _ & Ed' & HC0 & _). clear HR.
  split. { rewrite Ed'. eapply candidate_total; eauto. }
  intros l HC. apply (candidate_m _ _ _ _ _ _ _ _ _ mm l H' Em) in HC. destruct (HMin l HC) as (O' & EO' & HP). destruct (candidate_total _ _ _ _ _ _ _ _ _ l H' HC) as (y & Hy).
  exists O', y. split; auto. split; auto. intros pen Hpen.
  assert (Es' : m_solver d' = Some s1) by (rewrite Ed'; cbn; auto). assert (Hpen1 : penalty s1 (ncols O) = Some pen) by (rewrite HS; auto).
  split.
  - intros x Hx. destruct (residual_rows _ _ _ _ _ _ _ Hx) as (g & -> & Hg). destruct (residual_rows _ _ _ _ _ _ _ Hy) as (h & Ey & Hh). rewrite Ey.
    rewrite <- !bsum_plus. apply bsum_le. intros i Hi. eapply (HP s1 pen); eauto.
  - intros i x yi Hi Hx Hyi. eapply (HP s1 pen); eauto. Qed.

Theorem fit_best X d states lhs inputs d' s : lsx_ok X -> reach X d -> m_intrusive d = false -> good_arr states -> good_arr lhs -> valid_in inputs ->
  fit X d states lhs inputs = (d', Ok tt) -> m_solver d = Some s -> best X d' s states lhs inputs /\ same_roles d d'.
Proof. intros HX HR Hi G1 G2 G3 E Es. destruct (fit_ok_fitted X d states lhs inputs d' HX (reach_minv X d HX HR) Hi G1 G2 G3 E) as (d1 & r & m & k & U & HRl & HP & _ & HFt & ER & _).
  split; [|destruct (fitted_refit_layout _ _ _ _ _ _ _ _ _ _ HX HFt ER) as (_ & _ & _ & _ & _ & _ & _ & _ & _ & A7); eapply roles_trans; eauto].
  eapply fitted_best; eauto. Qed.

Lemma tuned_fitted X states lhs inputs d : lsx_ok X -> good_arr states -> good_arr lhs -> valid_in inputs -> tuned X states lhs inputs d ->
  exists r m k U, fitted X d r m k (atleast_2d states) (atleast_2d lhs) U inputs.
Proof. intros HX G1 G2 G3 H. induction H as [d d' HR Hi E|d g d' HT IH HG E|d d' x HT IH E].
  - destruct (fit_ok_fitted X d states lhs inputs d' HX (reach_minv X d HX HR) Hi G1 G2 G3 E) as (d1 & r & m & k & U & _ & _ & _ & HFt & ER & _).
    destruct (refit_minimises X d1 d' r m k _ _ U inputs HX HFt ER) as (H' & _). eauto.
  - destruct IH as (r & m & k & U & H). exists r, m, k, U. eapply set_regularizer_fitted; eauto.
  - destruct IH as (r & m & k & U & H). exists r, m, k, U. destruct x as [[]|e].
    + destruct (refit_minimises X d d' r m k _ _ U inputs HX H E) as (H' & _). auto.
    + destruct (refit_inv X d d' (Err e) _ _ _ _ _ _ _ HX H E) as [Hbad _]. destruct Hbad as [-> _]; [discriminate|]. auto. Qed.
Theorem tuned_best X states lhs inputs d d' s : lsx_ok X -> good_arr states -> good_arr lhs -> valid_in inputs -> tuned X states lhs inputs d ->
  refit X d = (d', Ok tt) -> m_solver d = Some s -> best X d' s states lhs inputs.
Proof. intros HX G1 G2 G3 HT E Es. destruct (tuned_fitted X states lhs inputs d HX G1 G2 G3 HT) as (r & m & k & U & H). eapply fitted_best; eauto. intros s' w E'. congruence. Qed.

(* ---- C32 ---- *)
Lemma minv_consistent X d : minv X d -> consistent d.
Proof. intros H. assert (HI := mi_s X d H). split; [apply (si_ne d HI)|]. split.
  { intros o e Ho Ee. destruct (si_valid d HI o Ho e Ee) as (Hc & r & m & Hr & Hm & Hw). split; auto. exists r, m. repeat (split; auto).
    - assert (Hx := si_r d HI e). rewrite (wf_rows r m e Hw) in Hx. apply Hx. apply in_entries_of. eauto.
    - intros Ht. assert (Hx := si_m d HI o e Ho Ht Ee). rewrite (wf_inputs r m e) in Hx; auto. unfold takes_input in Ht. congruence. }
  split. { rewrite (si_hasin d HI), existsb_exists. tauto. }
  split; [apply (si_noin d HI)|apply (si_dup d HI)]. Qed.
Theorem reach_consistent X d : lsx_ok X -> reach X d -> consistent d.
Proof. intros HX H. eapply minv_consistent, reach_minv; eauto. Qed.

(* assignments that are rejected, and what they leave *)
Lemma set_operators_err args d d' e : set_operators args d = (d', Err e) -> m_ops d' = m_ops d /\ m_infer d' = m_infer d /\ m_known d' = m_known d /\ m_m d' = m_m d /\ m_solver d' = m_solver d.
Proof. unfold set_operators. destruct args as [|a args]; [intros [= <- _]; auto|]. destruct (resolve false (a :: args)) as [hi [ops|]]; [|intros [= <- _]; cbn; auto].
  destruct (duplicates _); [intros [= <- _]; cbn; auto|]. destruct (state_dim ops); [|intros [= <- _]; cbn; auto]. destruct (input_dim ops); intros [= <- _]; cbn; auto. Qed.
Lemma set_operators_dup args d ops : resolve false args = (existsb takes_input ops, Ok ops) -> (exists i j o o', i < j /\ nth_error ops i = Some o /\ nth_error ops j = Some o' /\
  mo_ent o = None /\ mo_ent o' = None /\ mo_cls o = mo_cls o') -> snd (set_operators args d) = Err ValueError.
Proof. intros ER (i & j & o & o' & Hij & Ei & Ej & N1 & N2 & Hc). unfold set_operators. destruct args as [|a args]; auto. rewrite ER.
  assert (ED : duplicates (map mo_cls (filter uncal ops)) = true); [|rewrite ED; auto].
  clear ER a args d. revert i j Hij Ei Ej. induction ops as [|x ops IH]; intros i j Hij Ei Ej; [destruct i; discriminate|]. destruct j as [|j]; [lia|]. destruct i as [|i]; cbn in Ei, Ej.
  - injection Ei as ->. cbn [filter]. assert (uncal o = true) as -> by (unfold uncal; rewrite N1; auto). cbn [map duplicates].
    apply Bool.orb_true_iff. left. apply existsb_exists. exists (mo_cls o'). split; [|apply cls_eqb_eq; auto]. apply in_map. apply filter_In. split; [eapply nth_error_In; eauto|]. unfold uncal. rewrite N2. auto.
  - specialize (IH i j ltac:(lia) Ei Ej). cbn [filter]. destruct (uncal x); auto. cbn [map duplicates]. rewrite IH. apply Bool.orb_true_r. Qed.

(* inputs are demanded exactly when an operator takes inputs *)
Lemma fit_needs_inputs X d states lhs : minv X d -> m_frozen d = false -> m_intrusive d = false -> m_hasin d = true -> exists d' e, fit X d states lhs None = (d', Err e).
Proof. intros H Hf Hi Hh. unfold fit. rewrite Hf, Hi. unfold fit_solver. destruct (process_fit d states lhs None) as [d1 x] eqn:E. destruct x as [[[Q L] U]|e]; [|cbn; eauto].
  exfalso. destruct (process_fit_inv _ _ _ _ _ _ (mi_s X d H) Hf E) as (_ & HP). destruct (HP Q L U eq_refl) as (_ & _ & _ & _ & _ & Hin & _). destruct (Hin Hh) as (u & Eu & _). discriminate. Qed.
Lemma subtract_ignores l ix S U L : (forall o, In o l -> valid_op o) -> existsb takes_input l = false -> subtract_known l ix S U L = subtract_known l ix S None L.
Proof. intros HV Ht. revert L. induction ix as [|i ix IH]; intros L; auto. cbn [subtract_known]. unfold nth_op. destruct (nth_error l i) as [o|] eqn:Eo; auto. cbn [bind].
  assert (Hno : takes_input o = false). { destruct (takes_input o) eqn:Et; auto. assert (existsb takes_input l = true); [|congruence]. apply existsb_exists. exists o. split; auto. eapply nth_error_In; eauto. }
  assert (E : op_apply o (M S) U = op_apply o (M S) None).
  { unfold op_apply. destruct (mo_ent o) as [e|] eqn:Ee; auto. rewrite Hno. destruct U as [u|]; auto. apply apply_noinput. destruct (HV o (nth_error_In _ _ Eo) e Ee) as [Hc _]. rewrite Hc. exact Hno. }
  rewrite E. destruct (op_apply o (M S) None) as [[v|Y]|]; auto. cbn [bind]. destruct (shape_is _ _ Y); auto. Qed.
Lemma assemble_ignores d S U : existsb takes_input (m_ops d) = false -> assemble d S U = assemble d S None.
Proof. intros Ht. unfold assemble. f_equal. induction (m_infer d) as [|i ix IH]; auto. cbn [mapM]. rewrite IH. unfold nth_op. destruct (nth_error (m_ops d) i) as [o|] eqn:Eo; auto. cbn [bind].
  assert (Hno : takes_input o = false). { destruct (takes_input o) eqn:Et; auto. assert (existsb takes_input (m_ops d) = true); [|congruence]. apply existsb_exists. exists o. split; auto. eapply nth_error_In; eauto. }
  unfold op_datablock. rewrite Hno. destruct U as [u|]; auto. rewrite (datablock_noinput (mo_cls o) (M S) u (V [])) by exact Hno. auto. Qed.
Lemma fit_ignores_inputs X d states lhs u : minv X d -> m_hasin d = false -> fit X d states lhs u = fit X d states lhs None.
Proof. intros H Hh. assert (HI := mi_s X d H). unfold fit. destruct (m_frozen d) eqn:Ef; auto. destruct (m_intrusive d); auto. f_equal.
  unfold fit_solver, process_fit. destruct (clear d) as [d1 x1] eqn:EC. destruct (clear_inv d d1 x1 HI Ef EC) as (-> & H1 & F1 & _). cbn [seqm].
  destruct (match m_r d1 with Some _ => (d1, Ok tt) | None => set_state_dimension (nrows (atleast_2d states)) d1 end) as [d2 x2] eqn:E2.
  assert (P2 : sinv d2 /\ m_hasin d2 = m_hasin d1).
  { destruct (m_r d1); [injection E2 as <- <-; auto|]. destruct (set_r_inv _ _ _ _ H1 E2) as (A & B & C). split; auto. destruct x2 as [[]|e]; [destruct B as [_ ->]; auto|rewrite C; [auto|discriminate]]. }
  destruct P2 as [H2 Eh2]. assert (Hh1 : m_hasin d1 = m_hasin d) by apply F1. destruct x2 as [[]|]; cbn [seqm]; auto.
  destruct (negb (is_dim (m_r d2) (nrows (atleast_2d states)))); auto. destruct (negb (is_dim (m_r d2) (nrows (atleast_2d lhs)))); auto. destruct (negb (ncols (atleast_2d lhs) =? ncols (atleast_2d states))); auto.
  assert (Eh : m_hasin d2 = false) by congruence. rewrite Eh. cbn [seqm]. assert (Hex : existsb takes_input (m_ops d2) = false) by (rewrite <- (si_hasin d2 H2); auto).
  rewrite (subtract_ignores _ _ _ u) by (auto; apply (si_valid d2 H2)). destruct (subtract_known _ _ _ None _) as [L|]; cbn [bind]; auto. rewrite (assemble_ignores d2 _ u) by auto. auto. Qed.

(* ---- a concrete scipy ---- *)
Definition mat_eq_dec (A B : mat) : {A = B} + {A <> B} := list_eq_dec (list_eq_dec Req_EM_T) A B.
Definition lst0 (o : lsopts) (A B : mat) : res mat :=
  if mat_eq_dec A [[1%R]] then if mat_eq_dec B [[2%R]] then Ok [[2%R]] else Err LinAlgError else Err LinAlgError.
Definition X0 : lsx := {| x_lstsq := lst0; x_lsvd := fun _ => Err LinAlgError; x_lsolve := fun _ _ => Err LinAlgError |}.
Lemma lst0_ok o : lst0 o [[1%R]] [[2%R]] = Ok [[2%R]].
Proof. unfold lst0. destruct (mat_eq_dec [[1%R]] [[1%R]]) as [_|n]; [|congruence]. destruct (mat_eq_dec [[2%R]] [[2%R]]) as [_|n]; congruence. Qed.
Lemma X0_ok : lsx_ok X0.
Proof. split; [|split]; [|unfold svd_spec; cbn; intros; discriminate|unfold solve_spec; cbn; intros; discriminate].
  intros o k d c A B X Hk Hd HA HB E. cbn in E. unfold lst0 in E. destruct (mat_eq_dec A _) as [->|]; [|discriminate]. destruct (mat_eq_dec B _) as [->|]; [|discriminate]. injection E as <-.
  assert (k = 1) by (symmetry; exact (is_mat_len _ _ _ HA)). subst k. assert (d = 1) by (symmetry; exact (ncols_is_mat _ _ _ HA Hk)). assert (c = 1) by (symmetry; exact (ncols_is_mat _ _ _ HB Hk)). subst d c.
  split; [split; repeat constructor|]. intros [|j] x Hj Hx; [|lia]. unfold colres, mget, colv, vget, Rsqr. cbn. set (a := nth 0 x 0%R).
  assert (HS := Rle_0_sqr (a - 2)). assert (HU := Rsqr_0_uniq (a - 2)). unfold Rsqr in HS, HU. split; [nra|]. intros Hle. assert (a - 2 = 0)%R by (apply HU; nra). assert (a = 2)%R by lra. subst a. rewrite H0. lra. Qed.

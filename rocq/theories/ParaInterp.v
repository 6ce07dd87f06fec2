(* ParaInterp.v -- InterpModels: fit() is one separate fit per training parameter. *)
From Coq Require Import ZArith Permutation.
From Verif Require Import LinAlg MatAlg OpsProofs BlockAlg SolverReg SolverCond AffProofs InterpProofs.
From Verif Require Export ParaEval.
From Verif Require Export SpecPara.
#[local] Open Scope nat_scope.

Lemma i_set_frame X t Es t' x : i_set (px_cubic X) (px_linnd X) t Es = (t', x) -> i_cls t' = i_cls t /\ icls_from X t t'.
Proof. intros Et. assert (G : i_cls t = i_cls t /\ icls_from X t t) by (split; auto; intros C H; auto). unfold i_set in Et.
  destruct (i_params t); [|injection Et as <- _; auto]. destruct (negb (same_shapes _)); [injection Et as <- _; auto|]. destruct (negb _); [injection Et as <- _; auto|]. destruct (mapM _ _) as [ops|]; [|injection Et as <- _; auto].
  match type of Et with i_set_interp _ _ ?t1 _ = _ => destruct (i_set_interp_frame X t1 t' x Et) as [A B] end. cbn in A. split; auto. Qed.
Lemma reset_op_frame X mus subs ell t o' x : reset_op X mus subs ell (PItp t) = (o', x) -> psame X (PItp t) o'.
Proof. unfold reset_op. destruct (i_set_params (i_clear t) mus) as [t1|e] eqn:E1.
  2:{ intros [= <- _]. cbn. split; auto. intros C H; auto. }
  apply i_set_params_inv in E1. destruct E1 as (_ & _ & A1 & A2 & _). cbn in A1, A2. destruct (mapM (sub_entries ell) subs) as [Es|e].
  2:{ intros [= <- _]. split; auto. intros C H. left. congruence. }
  unfold wrap. destruct (i_set (px_cubic X) (px_linnd X) t1 Es) as [t' y] eqn:E2. intros [= <- _]. destruct (i_set_frame X t1 Es t' y E2) as [B1 B2]. split; [congruence|]. intros C H. destruct (B2 C H) as [K|K]; auto. left. congruence. Qed.
Definition all_itp (l : list pop) : Prop := forall o, In o l -> exists t, o = PItp t.
Lemma reset_ops_frame X mus subs : forall l ell l' x, all_itp l -> reset_ops X mus subs ell l = (l', x) -> length l' = length l /\ forall a o, nth_error l a = Some o -> exists o', nth_error l' a = Some o' /\ psame X o o' /\ (x = Ok tt -> reset_op X mus subs (ell + a) o = (o', Ok tt)).
Proof. induction l as [|o l IH]; intros ell l' x HA E; cbn [reset_ops] in E.
  - injection E as <- _. split; auto. intros [|a] o; discriminate.
  - destruct (HA o (or_introl eq_refl)) as [t ->]. destruct (reset_op X mus subs ell (PItp t)) as [o1 x1] eqn:E1. assert (S1 := reset_op_frame _ _ _ _ _ _ _ E1). destruct x1 as [[]|e].
    + destruct (reset_ops X mus subs (S ell) l) as [l2 x2] eqn:E2. injection E as <- <-. destruct (IH (S ell) l2 x2) as [A B]; auto. { intros o Ho. apply HA. right; auto. }
      split; [cbn; lia|]. intros [|a] o Eo; cbn in Eo; [injection Eo as <-; exists o1; rewrite Nat.add_0_r; auto|]. destruct (B a o Eo) as (o' & A1 & A2 & A3). exists o'. rewrite Nat.add_succ_r. auto.
    + injection E as <- <-. split; [auto|]. intros [|a] o Eo; cbn in Eo; [injection Eo as <-; exists o1; split; auto; split; auto; discriminate|]. exists o. split; auto. split; [apply psame_refl|discriminate]. Qed.

(* ---- every history -------------------------------------------------------------------------------------------------------------- *)
Record iinv (X : pext) (d : imodel) : Prop := { ii_base : pinv X (im_base d); ii_known : pm_known (im_base d) = []; ii_itp : all_itp (pm_ops (im_base d)) }.
Lemma pframe_itp X d d' : pframe X d d' -> all_itp (pm_ops d) -> all_itp (pm_ops d').
Proof. intros F H o' Ho. apply In_nth_error in Ho. destruct Ho as [i Ei]. destruct (pframe_nth X d d' i o' F Ei) as (o & Eo & S & _). destruct (H o (nth_error_In _ _ Eo)) as [t ->]. destruct o'; cbn in S; try tauto. eauto. Qed.
Lemma iinv_frame X d d' : pext_ok X -> iinv X d -> pframe X (im_base d) (im_base d') -> (forall s, pm_solver (im_base d') = Some s -> winv (px_l X) s) -> iinv X d'.
Proof. intros HX [A B C] F W. constructor; [eapply pframe_inv; eauto|rewrite (pfr_known X _ _ F); auto|eapply pframe_itp; eauto]. Qed.
Lemma ifit_solver_frame X d mus states lhs inputs d' x : pext_ok X -> iinv X d -> ifit_solver X d mus states lhs inputs = (d', x) -> pframe X (im_base d) (im_base d') /\ pm_solver (im_base d') = pm_solver (im_base d).
Proof. intros HX H E. unfold ifit_solver in E. destruct (pprocess (im_base d) mus states lhs inputs) as [b y] eqn:EP. destruct (pprocess_inv X _ _ _ _ _ _ _ HX (ii_base X d H) EP) as (F & S & _).
  destruct y as [[[Qs Zs] Us]|e]; [|injection E as <- _; auto]. destruct (sub_models X b 0 Qs Zs Us (length mus)); injection E as <- _; auto. Qed.
Lemma irefit_frame X d d' x : iinv X d -> irefit X d = (d', x) -> pframe X (im_base d) (im_base d') /\ pm_solver (im_base d') = pm_solver (im_base d).
Proof. intros H E. unfold irefit in E. destruct (im_sub d) as [subs|]; [|injection E as <- _; split; auto; apply pframe_refl]. destruct (im_params d) as [mus|]; [|injection E as <- _; split; auto; apply pframe_refl].
  destruct (refit_all X subs) as [subs' y]. destruct y; [|injection E as <- _; split; auto; apply pframe_refl]. destruct (reset_ops X mus subs' 0 (pm_ops (im_base d))) as [l z] eqn:ER. injection E as <- _. cbn. split; auto.
  destruct (reset_ops_frame X mus subs' _ _ _ _ (ii_itp X d H) ER) as [A B]. constructor; cbn; auto. intros i o Eo. destruct (B i o Eo) as (o' & E' & S & _). exists o'. split; auto. split; auto. rewrite (ii_known X d H). intros []. Qed.
Lemma ireach_inv X d : pext_ok X -> ireach X d -> iinv X d.
Proof. intros HX H. induction H as [k args a d HL HV Ha E|d a H IH Ha|d g H IH Hg|d mus s l u H IH HA|d H IH].
  - unfold imk_model in E. destruct (negb _); [discriminate|]. destruct (pmk_model k args a) as [b|] eqn:EB; [|discriminate]. cbn in E. injection E as <-. destruct (pmk_model_inv X k args a b HX HV Ha EB) as [HI _].
    assert (G : pm_known b = [] /\ all_itp (pm_ops b)).
    { unfold pmk_model in EB. destruct args as [|a0 args0] eqn:Eargs; [discriminate|]. rewrite <- Eargs in *. destruct (mapM presolve args) as [ops|] eqn:EM; [|discriminate]. cbn [bind] in EB. assert (HF := proj1 (mapM_Forall2 presolve args ops) EM).
      assert (HO : forall o, In o ops -> exists t, o = PItp t /\ i_entries t = None).
      { clear - HF HL. revert HL. induction HF as [|x y l l' H1 H2 IH]; intros HL o Ho; [destruct Ho|]. apply Forall_cons_iff in HL. destruct HL as [(t & -> & Et) HL]. cbn in H1. injection H1 as <-. destruct Ho as [<-|Ho]; eauto. }
      destruct (duplicates _); [discriminate|]. destruct (pstate_dim ops) as [r|]; [|discriminate]. cbn [bind] in EB. destruct (pinput_dim ops) as [m|]; [|discriminate]. cbn [bind] in EB.
      match type of EB with context [psync None ?d] => set (d0 := d) in EB end.
      destruct (psync None d0) as [d1 x1] eqn:E1. destruct x1 as [[]|]; cbn [pseq] in EB; [|discriminate]. destruct (pset_solver a d1) as [d2 x2] eqn:E2. destruct x2; [|discriminate]. injection EB as <-.
      assert (K : pm_known d2 = pm_known d1 /\ pm_ops d2 = pm_ops d1). { unfold pset_solver in E2. destruct (pm_intrusive d1); [injection E2 as <-; auto|]. destruct a; [injection E2 as <-; auto| |injection E2 as <-; auto|discriminate]. destruct (Req_EM_T x 0); [injection E2 as <-; auto|]. destruct (Rlt_dec 0 x); [injection E2 as <-; auto|discriminate]. }
      assert (K0 : pm_known d0 = []). { unfold d0. cbn. unfold pindices. apply TupleLemmas.filter_false. intros i Hi. destruct (nth_error ops i) as [o|] eqn:Eo; auto. destruct (HO o (nth_error_In _ _ Eo)) as (t & -> & Et). unfold puncal. cbn. rewrite Et. reflexivity. }
      assert (K1 : pm_known d1 = pm_known d0 /\ all_itp (pm_ops d1)).
      { unfold psync in E1. assert (HO0 : all_itp (pm_ops d0)) by (intros o Ho; destruct (HO o Ho) as (t & -> & _); eauto). clearbody d0.
        assert (HW : forall p l, all_itp l -> all_itp (map (fun o => match pdim o with None => with_pdim p o | Some _ => o end) l)) by (intros p l Hl o Ho; apply in_map_iff in Ho; destruct Ho as (o0 & <- & Ho); destruct (Hl o0 Ho) as [t ->]; destruct (pdim (PItp t)); cbn; eauto).
        destruct (one_of _) as [p|]; [|discriminate]. cbn in E1. destruct p as [q|]; injection E1 as <-; cbn; auto. }
      destruct K as [-> ->]. destruct K1 as [-> ?]. auto. }
    destruct G. constructor; auto.
  - destruct (pset_solver a (im_base d)) as [b x] eqn:E. destruct (pset_solver_inv X a _ _ _ (ii_base X d IH) Ha E) as [F W]. eapply iinv_frame; [exact HX|exact IH| |]; cbn; rewrite E; auto.
  - destruct (pset_reg g (im_base d)) as [b x] eqn:E. destruct (pset_reg_frame X g _ _ _ (ii_base X d IH) Hg E) as [F W]. eapply iinv_frame; [exact HX|exact IH| |]; cbn; rewrite E; auto.
  - unfold ifit. destruct (pm_intrusive (im_base d)); auto. destruct (ifit_solver X d mus s l u) as [d1 x1] eqn:E1. destruct (ifit_solver_frame X d mus s l u d1 x1 HX IH E1) as [F1 S1].
    assert (H1 : iinv X d1). { eapply iinv_frame; eauto. rewrite S1. apply (pi_solver X _ (ii_base X d IH)). } destruct x1; auto. destruct (irefit X d1) as [d2 x2] eqn:E2. destruct (irefit_frame X d1 d2 x2 H1 E2) as [F2 S2].
    eapply iinv_frame; [exact HX|exact H1|exact F2|]. cbn. rewrite S2. apply (pi_solver X _ (ii_base X d1 H1)).
  - destruct (irefit X d) as [d2 x2] eqn:E2. destruct (irefit_frame X d d2 x2 IH E2) as [F2 S2]. eapply iinv_frame; [exact HX|exact IH|exact F2|]. cbn. rewrite S2. apply (pi_solver X _ (ii_base X d IH)). Qed.

(* ---- one submodel ------------------------------------------------------------------------------------------------------------------- *)
Definition bare (o : pop) : mop := {| mo_cls := pcls o; mo_ent := None |}.
Lemma bare_sub i l : (forall o, In o l -> pentries o = None) -> mapM (sub_op i) l = Ok (map bare l).
Proof. induction l as [|o l IH]; intros H; cbn [mapM map]; auto. unfold sub_op at 1. rewrite (H o (or_introl eq_refl)). cbn [bind]. rewrite IH by (intros; apply H; right; auto). reflexivity. Qed.
Lemma resolve_bare l l' : Forall2 (fun a o => resolve1 a = Ok o) (map AOp l) l' -> l' = l.
Proof. revert l'. induction l as [|o l IH]; intros l' H; inversion H as [|? ? ? ? E1 E2]; subst; auto. cbn in E1. injection E1 as <-. rewrite (IH _ E2). reflexivity. Qed.
Lemma mk_bare k cs s m0 : mk_model k false (map AOp (map bare cs)) (SObj s) = Ok m0 ->
  sinv m0 /\ m_frozen m0 = false /\ m_intrusive m0 = false /\ m_solver m0 = Some s /\ m_ops m0 = map bare cs /\ m_known m0 = [] /\ m_hasin m0 = existsb ptakes cs.
Proof. unfold mk_model. destruct (set_operators _ _) as [d1 x1] eqn:E1. destruct x1 as [[]|]; cbn [seqm]; [|discriminate].
  assert (HV : Forall valid_arg (map AOp (map bare cs))). { rewrite Forall_forall. intros a Ha. apply in_map_iff in Ha. destruct Ha as (o & <- & Ho). apply in_map_iff in Ho. destruct Ho as (p & <- & _). intros e. discriminate. }
  destruct (set_operators_inv _ _ _ HV E1) as (HI & HS & HF & HK & HO & Hinf & Hkn & _). apply resolve_bare in HO. cbn in HF.
  assert (Hk0 : m_known d1 = []). { rewrite Hkn, HO. unfold indices. apply TupleLemmas.filter_false. intros i _. rewrite nth_error_map. destruct (nth_error cs i); reflexivity. }
  assert (Hi : m_intrusive d1 = false). { rewrite (si_intr d1 HI). assert (P := Permutation_length (si_perm d1 HI)). rewrite Hk0, app_nil_r, seq_length in P. rewrite P. assert (N := si_ne d1 HI). destruct (m_ops d1); [congruence|reflexivity]. }
  unfold set_solver. rewrite HF, Hi. intros [= <-]. cbn. split; [destruct HI; constructor; auto|]. do 5 (split; [auto|]). rewrite (si_hasin d1 HI), HO. clear. induction cs as [|c cs IH]; auto. cbn. rewrite IH. reflexivity. Qed.

Lemma process_fit_in d s l u : sinv d -> m_frozen d = false -> m_hasin d = true -> process_fit d s l (Some (M (atleast_2d u))) = process_fit d s l (Some u).
Proof. intros HI HF HH. unfold process_fit. destruct (clear d) as [d1 x1] eqn:E1. destruct (clear_inv d d1 x1 HI HF E1) as (-> & _ & Fr & _). cbn [seqm].
  assert (H1 : m_hasin d1 = true). { destruct Fr as (_ & _ & _ & _ & A & _). congruence. }
  destruct (match m_r d1 with Some _ => (d1, Ok tt) | None => set_state_dimension (nrows (atleast_2d s)) d1 end) as [d2 x2] eqn:E2.
  assert (H2 : m_hasin d2 = true). { destruct (m_r d1); [injection E2 as <- _; auto|]. unfold set_state_dimension in E2. destruct (forallb _ _); injection E2 as <- _; auto. }
  destruct x2; cbn [seqm]; auto. rewrite H2. reflexivity. Qed.

(* the data of submodel b *)
Lemma sub_models_spec X d Qs Zs Us : forall n i subs, sub_models X d i Qs Zs Us n = Ok subs -> length subs = n /\
  forall b m0, nth_error subs b = Some m0 -> exists Q Z U, nth_error Qs (i + b) = Some Q /\ nth_error Zs (i + b) = Some Z /\ nth_error Us (i + b) = Some U /\ sub_model X d (i + b) Q Z U = Ok m0.
Proof. induction n as [|n IH]; intros i subs E; cbn [sub_models] in E; [injection E as <-; split; auto; intros [|b] m0; discriminate|].
  unfold nth_r in E at 1. destruct (nth_error Qs i) as [Q|] eqn:EQ; [|discriminate]. cbn [bind] in E. unfold nth_r in E at 1. destruct (nth_error Zs i) as [Z|] eqn:EZ; [|discriminate]. cbn [bind] in E. unfold nth_r in E at 1. destruct (nth_error Us i) as [U|] eqn:EU; [|discriminate]. cbn [bind] in E.
  destruct (sub_model X d i Q Z U) as [m0|] eqn:E0; [|discriminate]. cbn [bind] in E. destruct (sub_models X d (S i) Qs Zs Us n) as [rest|] eqn:E1; [|discriminate]. cbn [bind] in E. injection E as <-.
  destruct (IH (S i) rest E1) as [A B]. split; [cbn; lia|]. intros [|b] m1 Em; cbn in Em.
  - injection Em as <-. rewrite Nat.add_0_r. eauto 8.
  - replace (i + S b) with (S i + b) by lia. apply B; auto. Qed.
Lemma refit_all_spec X : forall l l', refit_all X l = (l', Ok tt) -> Forall2 (fun a b => refit (px_l X) a = (b, Ok tt)) l l'.
Proof. induction l as [|m0 l IH]; intros l' E; cbn [refit_all] in E; [injection E as <-; constructor|]. destruct (refit (px_l X) m0) as [m1 x] eqn:E1. destruct x as [[]|]; [|discriminate].
  destruct (refit_all X l) as [t y]. injection E as <- ->. constructor; auto. Qed.
Lemma psubtract_none l mus Qs Us Zs Zs' : psubtract l [] mus Qs Us Zs = Ok Zs' -> Zs' = Zs.
Proof. cbn. intros [= <-]. reflexivity. Qed.

(* ---- fit() ------------------------------------------------------------------------------------------------------------------------ *)
Definition trained_as (l : list mop) (ell : nat) (c : cls) (r m : nat) (e : op) : Prop :=
  nth_error l ell = Some {| mo_cls := c; mo_ent := Some e |} /\ cls_of e = c /\ wf_op r m e.
Lemma sub_entries_spec r m c ell subs : (forall b m0, nth_error subs b = Some m0 -> exists e, trained_as (m_ops m0) ell c r m e) ->
  exists ops, mapM (sub_entries ell) subs = Ok (map entries2 ops) /\ family r m c ops /\ length ops = length subs /\ forall b m0, nth_error subs b = Some m0 -> trained_as (m_ops m0) ell c r m (nth b ops (OConst [])).
Proof. induction subs as [|m0 subs IH]; intros H. { exists []. split; auto. split; [constructor|]. split; auto. intros [|b] m0; discriminate. }
  destruct (H 0 m0 eq_refl) as (e & He). destruct IH as (ops & E & HF & HL & HT). { intros b m1 Eb. apply (H (S b)); auto. }
  exists (e :: ops). cbn [mapM map]. unfold sub_entries at 1, nth_r. destruct He as (A & B & C). rewrite A. cbn [bind mo_ent]. rewrite E. cbn [bind]. split; auto. split; [constructor; auto|]. split; [cbn; lia|].
  intros [|b] m1 Eb; cbn in Eb; [injection Eb as <-; split; auto|]. apply HT; auto. Qed.
Lemma one_submodel X d b1 i st lh uo U s r m dF m1 : pext_ok X -> (forall o, In o (pm_ops b1) -> pentries o = None) -> pm_solver b1 = Some s -> winv (px_l X) s ->
  map bare (pm_ops b1) = map bare (pm_ops d) -> pm_kind b1 = pm_kind d -> good_arr st -> good_arr lh -> valid_in uo -> nrows (atleast_2d st) = r ->
  (if existsb ptakes (pm_ops d) then exists u, uo = Some u /\ U = Some (M (atleast_2d u)) /\ nrows (atleast_2d u) = m else U = uo) ->
  sub_model X b1 i (atleast_2d st) (atleast_2d lh) U = Ok dF -> refit (px_l X) dF = (m1, Ok tt) ->
  exists m0, separate d s = Ok m0 /\ fit (px_l X) m0 st lh uo = (m1, Ok tt) /\ length (m_ops m1) = length (pm_ops d) /\
    forall ell o, nth_error (pm_ops d) ell = Some o -> exists e, trained_as (m_ops m1) ell (pcls o) r m e.
Proof. intros HX Hno ES HW EB EK G1 G2 G3 ER HU E E2. unfold sub_model in E. rewrite (bare_sub i _ Hno), ES, EB, EK in E. cbn [bind] in E.
  destruct (mk_model (pm_kind d) false (map AOp (map bare (pm_ops d))) (SObj s)) as [m0|] eqn:E0; [|discriminate]. cbn [bind] in E.
  destruct (mk_bare _ _ _ _ E0) as (HI & HF & Hi & HS & HO & HK & HH). assert (EF : fit_solver (px_l X) m0 (M (atleast_2d st)) (M (atleast_2d lh)) U = fit_solver (px_l X) m0 st lh uo).
  { unfold fit_solver. replace (process_fit m0 (M (atleast_2d st)) (M (atleast_2d lh)) U) with (process_fit m0 st lh U) by reflexivity. destruct (existsb ptakes (pm_ops d)) eqn:EI; [|rewrite HU; auto].
    destruct HU as (u & -> & -> & _). rewrite process_fit_in by auto. reflexivity. }
  rewrite EF in E. destruct (fit_solver (px_l X) m0 st lh uo) as [dF' x] eqn:E1. destruct x as [[]|]; [|discriminate]. injection E as ->.
  exists m0. split. { unfold separate. rewrite <- E0. rewrite map_map. reflexivity. } split. { unfold fit. rewrite HF, Hi, E1. cbn [seqm]. exact E2. }
  assert (HX' : lsx_ok (px_l X)) by apply HX.
  destruct (fit_solver_inv (px_l X) m0 st lh uo dF (Ok tt) HX' HI HF Hi) as (HI' & Fr & _ & _ & K); auto. { intros s0 Es. rewrite HS in Es. injection Es as <-. auto. }
  destruct (K eq_refl) as (_ & r' & m' & k & UU & HFt). destruct (refit_inv _ _ _ _ _ _ _ _ _ _ _ HX' HFt E2) as [_ K2]. destruct (K2 eq_refl) as (s1 & O & l & _ & _ & -> & (HL & _ & HC) & _).
  destruct Fr as (_ & _ & Fi & Fk & Fh & _ & _ & Fl & _ & Fc). cbn in Fi, Fk, Fh, Fl, Fc. cbn [m_ops with_ops].
  assert (Hr' : r' = r). { destruct (ft_data _ _ _ _ _ _ _ _ _ HFt) as (HQ & _). rewrite <- ER. symmetry. apply HQ. }
  split. { rewrite HL, Fl, HO, map_length. auto. } intros ell o Eo. assert (Hell : ell < length (pm_ops d)) by (apply nth_error_Some; congruence).
  assert (Hin : In ell (m_infer dF)). { rewrite Fi. assert (P := si_perm m0 HI). rewrite HK, app_nil_r in P. apply (Permutation_in _ (Permutation_sym P)). apply in_seq. rewrite HO, map_length. lia. }
  destruct (HC ell Hin) as (o1 & e & A1 & A2 & A3 & A4). assert (Ec : mo_cls o1 = pcls o). { destruct (Fc ell (bare o)) as (o2 & B1 & B2). { rewrite HO, nth_error_map, Eo. reflexivity. } rewrite A1 in B1. injection B1 as ->. exact B2. }
  exists e. rewrite Ec in *. split; auto. split; auto. subst r'. destruct (existsb ptakes (pm_ops d)) eqn:EI.
  - destruct HU as (u & -> & _ & Em). assert (m' = m); [|subst; auto]. destruct (ft_in _ _ _ _ _ _ _ _ _ HFt) as (_ & u' & Eu & EU). { rewrite Fh, HH. auto. } injection Eu as <-. destruct (ft_data _ _ _ _ _ _ _ _ _ HFt) as (_ & _ & HUU). rewrite <- Em, EU. symmetry. apply HUU.
  - apply (wf_noinput r m'); auto. rewrite A3. destruct (has_inputs (pcls o)) eqn:Eh; auto. assert (existsb ptakes (pm_ops d) = true); [|congruence]. apply existsb_exists. exists o. split; auto. eapply nth_error_In; eauto. Qed.

Lemma Forall2_length_eq {A B} (P : A -> B -> Prop) l l' : Forall2 P l l' -> length l = length l'.
Proof. intros H. induction H; cbn; auto. Qed.
Lemma nth_error_same {A} (l l' : list A) : length l = length l' -> (forall i, i < length l -> nth_error l i = nth_error l' i) -> l = l'.
Proof. revert l'. induction l as [|a l IH]; intros [|b l'] HL H; try discriminate; auto. assert (E := H 0 ltac:(cbn; lia)). injection E as ->. f_equal. apply IH; [cbn in HL; lia|]. intros i Hi. apply (H (S i)). cbn; lia. Qed.
Lemma nth_error_nth_in {A} (l : list A) i d : i < length l -> nth_error l i = Some (nth i l d).
Proof. intros H. destruct (nth_error_lt l i H) as [a E]. rewrite E. f_equal. symmetry. apply nth_error_nth; auto. Qed.
Lemma bare_cls l l' : map pcls l = map pcls l' -> map bare l = map bare l'.
Proof. intros H. assert (E : forall k, map bare k = map (fun c => {| mo_cls := c; mo_ent := None |}) (map pcls k)) by (intros k; rewrite map_map; reflexivity). rewrite !E, H. reflexivity. Qed.
Theorem ifit_separate X d mus states lhs inputs d' s : pext_ok X -> iinv X d -> fit_args (im_base d) mus states lhs inputs -> NoDup mus -> pm_intrusive (im_base d) = false -> pm_solver (im_base d) = Some s ->
  ifit X d mus states lhs inputs = (d', Ok tt) -> forall b, b < length mus ->
  exists m0 m1 e, separate (im_base d) s = Ok m0 /\ fit (px_l X) m0 (nth b states (V [])) (nth b lhs (V [])) (match inputs with Some us => nth_error us b | None => None end) = (m1, Ok tt) /\
    snd (pevaluate (im_base d') (nth b mus (PS 0))) = Ok e /\ m_ops e = m_ops m1.
Proof. intros HX HI HA HN Hi ES E. unfold ifit in E. rewrite Hi in E. destruct (ifit_solver X d mus states lhs inputs) as [d1 x1] eqn:E1. destruct x1 as [[]|]; [|discriminate].
  destruct (ifit_solver_frame X d mus states lhs inputs d1 (Ok tt) HX HI E1) as [F1 S1]. unfold ifit_solver in E1. destruct (pprocess (im_base d) mus states lhs inputs) as [b1 y] eqn:EP. destruct y as [[[Qs Zs] Us]|]; [|discriminate].
  destruct (sub_models X b1 0 Qs Zs Us (length mus)) as [subs|] eqn:ESub; [|discriminate]. injection E1 as <-. cbn [im_base] in *.
  destruct (pprocess_inv X _ _ _ _ _ _ _ HX (ii_base X d HI) EP) as (_ & _ & _ & C1 & K1). destruct (K1 _ _ _ eq_refl) as [r PP]. clear K1 EP.
  assert (HW : winv (px_l X) s) by (apply (pi_solver X _ (ii_base X d HI)); auto).
  assert (H1 : pinv X b1). { eapply pframe_inv; eauto; [apply HI|]. rewrite S1. apply (pi_solver X _ (ii_base X d HI)). }
  assert (Hk1 : pm_known b1 = []) by (rewrite (pfr_known X _ _ F1); apply HI).
  unfold irefit in E. cbn [im_sub im_params im_base] in E. destruct (refit_all X subs) as [subs' z] eqn:ERA. destruct z as [[]|]; [|discriminate]. destruct (reset_ops X mus subs' 0 (pm_ops b1)) as [l w] eqn:ERO. injection E as <- ->. cbn [im_base].
  apply refit_all_spec in ERA. destruct (sub_models_spec X b1 Qs Zs Us _ _ _ ESub) as [HLs HSub]. assert (HL2 := Forall2_length_eq _ _ _ ERA).
  destruct (reset_ops_frame X mus subs' _ _ _ _ (pframe_itp X _ _ F1 (ii_itp X d HI)) ERO) as [HLl HRO].
  assert (Hno : forall o, In o (pm_ops b1) -> pentries o = None /\ exists t, o = PItp t).
  { intros o Ho. split; [|exact (pframe_itp X _ _ F1 (ii_itp X d HI) o Ho)]. apply In_nth_error in Ho. destruct Ho as [ell Eo]. apply (C1 ell o); auto. assert (P := pi_perm X b1 H1). rewrite Hk1, app_nil_r in P. apply (Permutation_in _ (Permutation_sym P)). apply in_seq. assert (ell < length (pm_ops b1)) by (apply nth_error_Some; congruence). lia. }
  destruct HA as (G1 & G2 & G3 & _). assert (Hls := pp_ls _ _ _ _ _ _ _ _ _ _ PP). assert (Hll := pp_ll _ _ _ _ _ _ _ _ _ _ PP).
  assert (EZ : Zs = map atleast_2d lhs). { assert (K := pp_sub _ _ _ _ _ _ _ _ _ _ PP). rewrite Hk1 in K. apply psubtract_none in K. auto. } assert (EQ := pp_Q _ _ _ _ _ _ _ _ _ _ PP).
  assert (EB := bare_cls _ _ (pframe_cls X _ _ F1)).
  destruct (Nat.eq_dec (length mus) 0) as [En|Hn]; [intros b Hb; lia|].
  (* the number of inputs *)
  assert (HM : exists m, 0 < m /\ forall b U, nth_error Us b = Some U -> b < length mus ->
     let uo := match inputs with Some us => nth_error us b | None => None end in valid_in uo /\
     if existsb ptakes (pm_ops (im_base d)) then exists u, uo = Some u /\ U = Some (M (atleast_2d u)) /\ nrows (atleast_2d u) = m else U = uo).
  { rewrite <- (pi_hasin X _ (ii_base X d HI)). destruct (pm_hasin (im_base d)) eqn:Eh.
    - destruct (pp_in _ _ _ _ _ _ _ _ _ _ PP Eh) as (us & m & -> & -> & _ & HLu & HR & _). destruct G3 as [G3 _]. assert (HR' := all_rows_spec _ _ HR). rewrite Forall_forall in HR', G3. exists m. split.
      + destruct us as [|u us]; [cbn in HLu; lia|]. destruct (good_2d u (G3 u (or_introl eq_refl))) as (A & _). rewrite (HR' (atleast_2d u)) in A by (left; auto). auto.
      + intros b U EU Hb. rewrite nth_error_map in EU. destruct (nth_error us b) as [u|] eqn:Eu; [|discriminate]. injection EU as <-. cbn zeta. assert (Hu := nth_error_In _ _ Eu). split; [apply G3; auto|]. exists u. split; auto. split; auto. apply HR'. apply in_map. auto.
    - destruct (pp_noin _ _ _ _ _ _ _ _ _ _ PP Eh) as [_ ->]. exists 1. split; [lia|]. intros b U EU Hb. cbn zeta. destruct inputs as [us|].
      + rewrite nth_error_map in EU. destruct (nth_error us b) as [u|] eqn:Eu; [|discriminate]. injection EU as <-. split; auto. destruct G3 as [G3 _]. rewrite Forall_forall in G3. apply G3. eapply nth_error_In; eauto.
      + assert (K := nth_error_In _ _ EU). apply repeat_spec in K. subst. split; auto. }
  destruct HM as (m & Hm & HM).
  assert (HB : forall b m1, nth_error subs' b = Some m1 -> exists m0, separate (im_base d) s = Ok m0 /\
     fit (px_l X) m0 (nth b states (V [])) (nth b lhs (V [])) (match inputs with Some us => nth_error us b | None => None end) = (m1, Ok tt) /\ length (m_ops m1) = length (pm_ops (im_base d)) /\
     forall ell o, nth_error (pm_ops (im_base d)) ell = Some o -> exists e, trained_as (m_ops m1) ell (pcls o) r m e).
  { intros b m1 Em. assert (Hb : b < length mus). { rewrite <- HLs, HL2. apply nth_error_Some. congruence. } destruct (nth_error_lt subs b) as [dF EF]; [lia|].
    destruct (Forall2_nth_error _ _ _ b dF ERA EF) as (m1' & Em' & ERf). rewrite Em in Em'. injection Em' as <-. destruct (HSub b dF EF) as (Q & Z & U & EQb & EZb & EUb & ESb). cbn [Nat.add] in *.
    rewrite EQ, nth_error_map in EQb. rewrite EZ, nth_error_map in EZb. rewrite (nth_error_nth_in states b (V [])) in EQb by lia. rewrite (nth_error_nth_in lhs b (V [])) in EZb by lia. cbn in EQb, EZb. injection EQb as <-. injection EZb as <-.
    destruct (HM b U EUb Hb) as [Gu HU]. assert (I1 : In (nth b states (V [])) states) by (apply nth_In; lia). assert (I2 : In (nth b lhs (V [])) lhs) by (apply nth_In; lia). rewrite Forall_forall in G1, G2.
    apply (one_submodel X (im_base d) b1 b _ _ _ U s r m dF m1); auto.
    - intros o Ho. apply (Hno o Ho). - rewrite S1; auto. - apply F1. - assert (K := all_rows_spec _ _ (pp_rq _ _ _ _ _ _ _ _ _ _ PP)). rewrite Forall_forall in K. apply K. apply in_map. auto. }
  assert (Hr : 0 < r). { destruct states as [|st0 sts]; [cbn in Hls; lia|]. rewrite Forall_forall in G1. destruct (good_2d st0 (G1 st0 (or_introl eq_refl))) as (A & _). assert (K := all_rows_spec _ _ (pp_rq _ _ _ _ _ _ _ _ _ _ PP)). cbn in K. apply Forall_cons_iff in K. destruct K as [K _]. lia. }
  destruct (pp_p _ _ _ _ _ _ _ _ _ _ PP) as (p & Ep & Epd). assert (HUn : uniform p mus).
  { apply (params_dim_ok mus p Ep). intros ->. cbn in Hn. lia. }
  (* every operator *)
  assert (HO : forall ell o, nth_error (pm_ops b1) ell = Some o -> exists t ops, nth_error l ell = Some (PItp t) /\ length ops = length mus /\
     forall b, b < length mus -> i_evaluate t (nth b mus (PS 0)) = Ok (nth b ops (OConst [])) /\ forall m1, nth_error subs' b = Some m1 -> trained_as (m_ops m1) ell (pcls o) r m (nth b ops (OConst [])) /\ i_cls t = pcls o).
  { intros ell o Eo. destruct (HRO ell o Eo) as (o' & Eo' & _ & K). specialize (K eq_refl). destruct (Hno o (nth_error_In _ _ Eo)) as [_ [t ->]]. cbn [reset_op Nat.add] in K. destruct (i_set_params (i_clear t) mus) as [t1|] eqn:Et1; [|discriminate].
    destruct (i_set_params_inv _ _ _ Et1) as (_ & Hne & A1 & A2 & A3 & A4 & _). cbn in A1, A2.
    destruct (sub_entries_spec r m (i_cls t) ell subs') as (ops & EM & HFm & HLo & HT).
    { intros b m1 Em. destruct (HB b m1 Em) as (_ & _ & _ & _ & HT). assert (EC : nth_error (map pcls (pm_ops (im_base d))) ell = Some (i_cls t)). { rewrite <- (pframe_cls X _ _ F1), nth_error_map, Eo. reflexivity. } rewrite nth_error_map in EC. destruct (nth_error (pm_ops (im_base d)) ell) as [oo|] eqn:Eoo; [|discriminate]. cbn in EC. injection EC as EC. destruct (HT ell oo Eoo) as [e He]. rewrite EC in He. eauto. }
    rewrite EM in K. cbn [wrap] in K. destruct (i_set (px_cubic X) (px_linnd X) t1 (map entries2 ops)) as [t' xx] eqn:ET. unfold wrap in K. injection K as <- ->.
    assert (HLm : length ops = length mus) by lia.
    destruct (i_set_faithful X r m p mus t1 ops t' (Ok tt)) as (B1 & _ & _ & B4 & B5); auto.
    - split; auto. split. { destruct mus as [|mu0 ms]; [congruence|]. rewrite (A4 mu0 (or_introl eq_refl)). f_equal. apply HUn. left; auto. } intros C HC. apply (pi_aux X b1 H1 (PItp t) (nth_error_In _ _ Eo)). congruence.
    - rewrite A1. auto.
    - destruct (B5 eq_refl) as [(_ & ops' & D1 & _ & _ & D4) _]. rewrite B4 in D1. injection D1 as <-. exists t', ops. split; auto. split; auto. intros b Hb. split; auto. intros m1 Em. split; [apply HT; auto|]. cbn. congruence. }
  intros b Hb. destruct (nth_error_lt subs' b) as [m1 Em]; [lia|]. destruct (HB b m1 Em) as (m0 & A1 & A2 & A3 & A4). exists m0, m1.
  assert (HLb : length (pm_ops b1) = length (pm_ops (im_base d))) by apply F1.
  destruct (peval_ops_ok (nth b mus (PS 0)) l) as (es & EE & HF).
  { intros o Ho. apply In_nth_error in Ho. destruct Ho as [ell Eo]. destruct (nth_error_lt (pm_ops b1) ell) as [o1 Eo1]. { rewrite <- HLl. apply nth_error_Some. congruence. }
    destruct (HO ell o1 Eo1) as (t & ops & E1 & _ & E2). rewrite Eo in E1. injection E1 as ->. cbn. rewrite (proj1 (E2 b Hb)). cbn. eauto. }
  assert (EEq : es = m_ops m1).
  { assert (HLe := Forall2_length_eq _ _ _ HF). apply nth_error_same; [lia|]. intros ell Hell. destruct (nth_error_lt (pm_ops b1) ell) as [o1 Eo1]; [lia|].
    destruct (HO ell o1 Eo1) as (t & ops & E1 & _ & E2). destruct (E2 b Hb) as [E3 E4]. destruct (E4 m1 Em) as [(D1 & _ & _) Ec]. rewrite D1.
    destruct (Forall2_nth_error _ _ _ ell _ HF E1) as (e & Ee & EV). cbn in EV. rewrite E3 in EV. cbn in EV. injection EV as <-. rewrite Ee, Ec. reflexivity. }
  subst es. destruct (pevaluate_sized r m (pw_ops l b1) (nth b mus (PS 0)) (m_ops m1)) as (e & C & D & _); auto.
  - cbn. intros ->. cbn in HLl. assert (N := pi_ne X b1 H1). destruct (pm_ops b1); [congruence|discriminate].
  - apply Forall_forall. intros o Ho. apply In_nth_error in Ho. destruct Ho as [ell Eo]. destruct (nth_error_lt (pm_ops (im_base d)) ell) as [oo Eoo]. { rewrite <- A3. apply nth_error_Some. congruence. }
    destruct (A4 ell oo Eoo) as (e & B1 & B2 & B3). rewrite Eo in B1. injection B1 as ->. exists e. auto.
  - exists e. auto. Qed.
Lemma C34_fits X d mus states lhs inputs d' s : pext_ok X -> ireach X d -> fit_args (im_base d) mus states lhs inputs -> NoDup mus -> pm_intrusive (im_base d) = false -> pm_solver (im_base d) = Some s ->
  ifit X d mus states lhs inputs = (d', Ok tt) -> forall b, b < length mus ->
  exists m0 m1 e, separate (im_base d) s = Ok m0 /\ fit (px_l X) m0 (nth b states (V [])) (nth b lhs (V [])) (dinput inputs b) = (m1, Ok tt) /\
    snd (pevaluate (im_base d') (nth b mus (PS 0))) = Ok e /\ m_ops e = m_ops m1.
Proof. intros HX HR. apply ifit_separate; auto. apply ireach_inv; auto. Qed.

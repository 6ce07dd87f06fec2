(* ParaFit.v -- parametric models: what fit() and refit() leave behind. *)
From Coq Require Import ZArith Permutation.
From Verif Require Import LinAlg MatAlg OpsProofs BlockAlg SolverReg SolverCond AffProofs InterpProofs.
From Verif Require Export ParaOps.
From Verif Require Export SpecPara.
#[local] Open Scope nat_scope.

(* ---- the shifted left-hand side --------------------------------------------------------------------------------------------- *)
Definition pposval (mu : pval) (q u : vec) (i : nat) (l : list pop) (a : nat) : R :=
  match nth_error l a with Some o => match snd (pop_eval o mu) with Ok e => opval q u i e | Err _ => 0%R end | None => 0%R end.
Lemma psubtract1_ok r m o mus Qs Us UU : 0 < r -> 0 < m -> psized r m o -> (forall mu, In mu mus -> eok o mu) -> (ptakes o = true -> Us = map (fun U => Some (M U)) UU) ->
  forall ks Zs i Zs', Forall2 (is_mat r) ks Zs -> (forall b, b < length ks -> is_mat r (nth b ks 0) (nth (i + b) Qs []) /\ is_mat m (nth b ks 0) (nth (i + b) UU [])) ->
  i + length ks <= length mus -> i + length ks <= length Qs -> i + length ks <= length UU ->
  psubtract1 o mus Qs Us Zs i = Ok Zs' ->
  Forall2 (is_mat r) ks Zs' /\ forall b, b < length ks -> exists e, snd (pop_eval o (nth (i + b) mus (PS 0))) = Ok e /\
    forall a j, a < r -> j < nth b ks 0 -> mget (nth b Zs' []) a j = (mget (nth b Zs []) a j - opval (colv r (nth (i + b) Qs []) j) (colv m (nth (i + b) UU []) j) a e)%R.
Proof. intros Hr Hm HS He Hin. induction ks as [|k ks IH]; intros Zs i Zs' HZ HD L1 L2 L3 E.
  - inversion HZ; subst. cbn in E. injection E as <-. split; [constructor|]. intros b Hb. cbn in Hb. lia.
  - inversion HZ as [|? Z ? Zs0 HZ1 HZ2]; subst. cbn [length] in *. destruct (HD 0) as [HQ HU]; [lia|]. rewrite Nat.add_0_r in HQ, HU. cbn [nth] in HQ, HU.
    cbn [psubtract1] in E. unfold nth_r in E. destruct (nth_error_lt Qs i) as [Q EQ]; [lia|]. rewrite EQ in E. cbn [bind] in E.
    destruct (nth_error Us i) as [U|] eqn:EU; [|discriminate]. cbn [bind] in E.
    destruct (nth_error_lt mus i) as [mu Emu]; [lia|]. rewrite Emu in E. cbn [bind] in E.
    assert (Ee : (match o with PMono o => Ok o | _ => snd (pop_eval o mu) end) = snd (pop_eval o mu)) by (destruct o; reflexivity).
    assert (Emn : nth i mus (PS 0) = mu) by (apply nth_of_error; auto).
    match type of E with bind ?t _ = _ => replace t with (snd (pop_eval o mu)) in E by (destruct o; reflexivity) end.
    destruct (snd (pop_eval o mu)) as [e|] eqn:Ev; [|discriminate]. cbn [bind] in E.
    destruct (eval_ok r m o mu e Hr HS) as [HSe Hce]; auto. { apply He. eapply nth_error_In; eauto. }
    rewrite (nth_of_error _ _ _ [] EQ) in HQ.
    destruct (op_apply_mat r m k e Q (nth i UU []) U Hr Hm HSe HQ HU) as (Y & EY & HY & HV).
    { unfold takes_input. rewrite Hce. intros Ht. specialize (Hin Ht). rewrite Hin in EU. rewrite nth_error_map in EU. destruct (nth_error UU i) as [u|] eqn:Eu; [|discriminate]. cbn in EU.
      rewrite (nth_of_error _ _ _ [] Eu). congruence. }
    rewrite EY in E. cbn [bind] in E. unfold shape_is in E. rewrite (is_mat_nrows _ _ _ HZ1), (is_mat_nrows _ _ _ HY), (ncols_is_mat _ _ _ HZ1 Hr), (ncols_is_mat _ _ _ HY Hr), !Nat.eqb_refl in E. cbn [andb] in E.
    destruct (psubtract1 o mus Qs Us Zs0 (S i)) as [rest|] eqn:ER; [|discriminate]. cbn [bind] in E. injection E as <-.
    destruct (IH Zs0 (S i) rest HZ2) as [G1 G2]; auto; try lia. { intros b Hb. specialize (HD (S b) ltac:(lia)). rewrite Nat.add_succ_r in HD. exact HD. }
    split. { constructor; auto. apply is_mat_msub; auto. }
    intros [|b] Hb.
    + rewrite Nat.add_0_r, Emn. exists e. split; auto. cbn [nth]. intros a j Ha Hj. rewrite (mget_msub r k) by auto. rewrite HV by auto. rewrite (nth_of_error _ _ _ [] EQ). reflexivity.
    + destruct (G2 b) as (e' & E1 & E2); [lia|]. rewrite Nat.add_succ_r. exists e'. split; auto. Qed.

Lemma psubtract_ok r m l mus Qs Us UU ks : 0 < r -> 0 < m -> length ks = length mus -> Forall2 (is_mat r) ks Qs -> Forall2 (is_mat m) ks UU ->
  forall ix Zs Zs', (forall i, In i ix -> exists o, nth_error l i = Some o /\ psized r m o /\ (forall mu, In mu mus -> eok o mu) /\ (ptakes o = true -> Us = map (fun U => Some (M U)) UU)) ->
  Forall2 (is_mat r) ks Zs -> psubtract l ix mus Qs Us Zs = Ok Zs' ->
  Forall2 (is_mat r) ks Zs' /\ (forall i o b, In i ix -> nth_error l i = Some o -> b < length mus -> exists e, snd (pop_eval o (nth b mus (PS 0))) = Ok e) /\
  forall b a j, b < length mus -> a < r -> j < nth b ks 0 ->
    mget (nth b Zs' []) a j = (mget (nth b Zs []) a j - lsum (map (pposval (nth b mus (PS 0)) (colv r (nth b Qs []) j) (colv m (nth b UU []) j) a l) ix))%R.
Proof. intros Hr Hm HL HQ HU. assert (LQ := Forall2_len _ _ _ HQ). assert (LU := Forall2_len _ _ _ HU).
  induction ix as [|i ix IH]; intros Zs Zs' Hix HZ E.
  - cbn in E. injection E as <-. split; auto. split; [intros i o b []|]. intros. unfold lsum; cbn. ring.
  - cbn [psubtract] in E. destruct (Hix i (or_introl eq_refl)) as (o & Eo & HS & He & Hin). unfold nth_r in E. rewrite Eo in E. cbn [bind] in E.
    destruct (psubtract1 o mus Qs Us Zs 0) as [Z1|] eqn:E1; [|discriminate]. cbn [bind] in E.
    destruct (psubtract1_ok r m o mus Qs Us UU Hr Hm HS He Hin ks Zs 0 Z1 HZ) as [G1 G2]; auto; try (cbn; lia).
    { intros b Hb. split; [apply (Forall2_nth (is_mat r)); auto|apply (Forall2_nth (is_mat m)); auto]. }
    destruct (IH Z1 Zs') as (F1 & F2 & F3); auto. { intros; apply Hix; right; auto. }
    split; auto. split.
    + intros i0 o0 b [<-|Hi] E0 Hb; [|eapply F2; eauto]. rewrite Eo in E0. injection E0 as <-. destruct (G2 b) as (e & Ev & _); [lia|]. cbn [Nat.add] in Ev. eauto.
    + intros b a j Hb Ha Hj. rewrite F3 by auto. destruct (G2 b) as (e & Ev & Hv); [lia|]. cbn [Nat.add] in *. rewrite Hv by auto. cbn [map]. rewrite lsum_cons. unfold pposval at 2. rewrite Eo, Ev. ring. Qed.

(* ---- training parameters ------------------------------------------------------------------------------------------------------ *)
Lemma set_training_ok mus l : forall l' x, set_training mus l = (l', x) -> length l' = length l /\
  forall i o, nth_error l i = Some o -> exists o', nth_error l' i = Some o' /\
    (o' = o \/ exists t t', o = PItp t /\ o' = PItp t' /\ i_set_params t mus = Ok t') /\
    (x = Ok tt -> match o with PItp t => exists t', o' = PItp t' /\ i_set_params t mus = Ok t' | _ => o' = o end).
Proof. induction l as [|o l IH]; intros l' x E; cbn [set_training] in E.
  - injection E as <- <-. split; auto. intros [|i] o; discriminate.
  - destruct o as [o|a|t].
    1,2: destruct (set_training mus l) as [l2 x2] eqn:E2; injection E as <- <-; destruct (IH l2 x2 eq_refl) as [L G]; split; [cbn; lia|];
      intros [|i] o0 E0; cbn in E0; [injection E0 as <-; eexists; split; [reflexivity|]; split; [left; reflexivity|reflexivity]|apply G; auto].
    destruct (i_set_params t mus) as [t'|e] eqn:Et.
    + destruct (set_training mus l) as [l2 x2] eqn:E2. injection E as <- <-. destruct (IH l2 x2 eq_refl) as [L G]. split; [cbn; lia|].
      intros [|i] o0 E0; cbn in E0; [|apply G; auto]. injection E0 as <-. exists (PItp t'). split; [reflexivity|]. split; [right; eauto|]. eauto.
    + injection E as <- <-. split; auto. intros i o0 E0. exists o0. split; auto. split; [left; auto|]. discriminate. Qed.
Lemma i_set_params_inv t mus t' : i_set_params t mus = Ok t' -> i_interp t = None /\ mus <> [] /\ i_cls t' = i_cls t /\ i_iclass t' = i_iclass t /\ i_params t' = Some (tparams mus) /\
  (forall mu, In mu mus -> i_pdim t' = Some (plen mu)) /\ i_entries t' = i_entries t /\ i_interp t' = None.
Proof. unfold i_set_params. destruct (i_interp t) eqn:Ei; [discriminate|]. destruct mus as [|p0 ms] eqn:Em; [discriminate|]. rewrite <- Em in *.
  destruct (negb _) eqn:EN; [discriminate|]. intros [= <-]. cbn. split; auto. split; [rewrite Em; congruence|]. split; auto. split; auto. split. { rewrite Em. reflexivity. }
  split; auto. intros mu Hmu. apply negb_false_iff in EN. rewrite forallb_forall in EN. specialize (EN mu Hmu). apply andb_prop in EN. destruct EN as [_ EN]. apply Nat.eqb_eq in EN. congruence. Qed.

Lemma F2_impl {A B} (P Q : A -> B -> Prop) l l' : (forall a b, P a b -> Q a b) -> Forall2 P l l' -> Forall2 Q l l'.
Proof. intros H HF. induction HF; constructor; auto. Qed.
Lemma mapM_ex {A B} (f : A -> res B) (P : A -> B -> Prop) l : (forall a, In a l -> exists b, f a = Ok b /\ P a b) -> exists bs, mapM f l = Ok bs /\ Forall2 P l bs.
Proof. induction l as [|a l IH]; intros H; [exists []; split; auto|]. destruct (H a (or_introl eq_refl)) as (b & E & Hb). destruct IH as (bs & E2 & HF); [intros; apply H; right; auto|].
  exists (b :: bs). cbn [mapM]. rewrite E. cbn [bind]. rewrite E2. cbn [bind]. auto. Qed.

(* the model and its solver hold the regression problem *)
Record pfitted (X : pext) (d : pmodel) (r m p : nat) (mus : list pval) (ks : list nat) (Qs Zs Us : list mat) (inputs : option (list arr)) : Prop := {
  pf_inv : pinv X d;
  pf_ne : pm_infer d <> [];
  pf_dims : 0 < r /\ 0 < m /\ Forall (lt 0) ks /\ mus <> [] /\ NoDup mus /\ length ks = length mus /\ uniform p mus;
  pf_data : Forall2 (is_mat r) ks Qs /\ Forall2 (is_mat r) ks Zs /\ Forall2 (is_mat m) ks Us;
  pf_r : pm_r d = Some r;
  pf_s : pm_s d = Some (length mus);
  pf_in : pm_hasin d = true -> pm_m d = Some m /\ exists us, inputs = Some us /\ Us = map atleast_2d us;
  pf_noin : pm_hasin d = false -> pm_m d = Some 0;
  pf_known : forall i, In i (pm_known d) -> exists o, nth_error (pm_ops d) i = Some o /\ psized r m o /\ (forall b, b < length mus -> exists e, snd (pop_eval o (nth b mus (PS 0))) = Ok e) /\ (forall mu, In mu mus -> eok o mu);
  pf_infer : forall i, In i (pm_infer d) -> exists o, nth_error (pm_ops d) i = Some o /\ readyi p mus o;
  pf_solver : exists s Bs L, pm_solver d = Some s /\ winv (px_l X) s /\
    Forall2 (fun i B => exists o, nth_error (pm_ops d) i = Some o /\ blockspec r m mus ks Qs Us o B) (pm_infer d) Bs /\
    clean (px_l X) s (hstack (map mT Bs)) L /\ is_mat r (lsumn ks) L /\
    forall b i j, b < length mus -> i < r -> j < nth b ks 0 -> mget L i (lsumn (firstn b ks) + j) =
      (mget (nth b Zs []) i j - lsum (map (pposval (nth b mus (PS 0)) (colv r (nth b Qs []) j) (colv m (nth b Us []) j) i (pm_ops d)) (pm_known d)))%R }.

Definition psamepen (d d' : pmodel) : Prop := forall s s' w, pm_solver d = Some s -> pm_solver d' = Some s' -> penalty s' w = penalty s w.

Lemma readyi_ready p mus o : readyi p mus o -> ready mus o. Proof. destruct o; cbn; auto. Qed.
Lemma existsb_takes X d o : pinv X d -> In o (pm_ops d) -> ptakes o = true -> pm_hasin d = true.
Proof. intros H Ho Ht. rewrite (pi_hasin X d H). apply existsb_exists. eauto. Qed.
Lemma eok_of d o mus : Forall (coeffs_ok (pm_ops d)) mus -> In o (pm_ops d) -> forall mu, In mu mus -> eok o mu.
Proof. intros HF Ho mu Hmu a ->. rewrite Forall_forall in HF. apply (HF mu Hmu); auto. Qed.
Lemma coeffs_frame X d d' mu : pframe X d d' -> coeffs_ok (pm_ops d) mu -> coeffs_ok (pm_ops d') mu.
Proof. intros F H a Ha. apply In_nth_error in Ha. destruct Ha as [i Ei]. destruct (pframe_nth X d d' i _ F Ei) as (o & Eo & S & _). destruct o as [|a0|]; cbn in S; try tauto. destruct S as (S1 & S2 & S3).
  destruct (H a0) as (th & H1 & H2); [eapply nth_error_In; eauto|]. exists th. unfold thetas in *. rewrite S2, S3. auto. Qed.

(* after the arguments are processed: the data as blocks *)
Lemma pprocessed_data X d d' mus states lhs inputs r Qs Zs Us : pext_ok X -> pinv X d -> pinv X d' -> pframe X d d' -> fit_args d mus states lhs inputs -> mus <> [] -> pprocessed d d' mus states lhs inputs r Qs Zs Us ->
  exists m p ks UU, 0 < r /\ 0 < m /\ Forall (lt 0) ks /\ length ks = length mus /\ uniform p mus /\ (forall o, In o (pm_ops d') -> is_param o = true -> pdim o = Some p) /\
    ks = map ncols Qs /\ Qs = map atleast_2d states /\ Forall2 (is_mat r) ks Qs /\ Forall2 (is_mat r) ks (map atleast_2d lhs) /\ Forall2 (is_mat m) ks UU /\ length Us = length mus /\
    (pm_hasin d' = true -> pm_m d' = Some m /\ Us = map (fun U => Some (M U)) UU /\ exists us, inputs = Some us /\ UU = map atleast_2d us) /\
    (pm_hasin d' = false -> pm_m d' = Some 0) /\
    (forall i, In i (pm_known d') -> exists o, nth_error (pm_ops d') i = Some o /\ psized r m o /\ (forall mu, In mu mus -> eok o mu) /\ (ptakes o = true -> Us = map (fun U => Some (M U)) UU)) /\
    Forall2 (is_mat r) ks Zs /\ (forall i o b, In i (pm_known d') -> nth_error (pm_ops d') i = Some o -> b < length mus -> exists e, snd (pop_eval o (nth b mus (PS 0))) = Ok e) /\
    forall b a j, b < length mus -> a < r -> j < nth b ks 0 ->
      mget (nth b Zs []) a j = (mget (nth b (map atleast_2d lhs) []) a j - lsum (map (pposval (nth b mus (PS 0)) (colv r (nth b Qs []) j) (colv m (nth b UU []) j) a (pm_ops d')) (pm_known d')))%R.
Proof. intros HX H H' HF (G1 & G2 & G3 & G4) Hne [].
  assert (Hh := pfr_hasin X d d' HF). destruct pp_p as (p & Ep & Hp). destruct (params_dim_ok mus p Ep Hne) as [U1 U2].
  destruct (good_blocks r states G1 pp_rq) as (B1 & B2 & B3). destruct (good_blocks r lhs G2 pp_rl) as (B4 & _ & _). rewrite <- pp_Q in B1, B2.
  assert (Hr : 0 < r) by (apply B3; destruct states, mus; try discriminate; congruence).
  rewrite (same_cols_spec _ _ pp_cols) in B4. rewrite <- pp_Q in B4. set (ks := map ncols Qs) in *.
  assert (HLk : length ks = length mus) by (unfold ks; rewrite pp_Q, !map_length; auto).
  assert (HM : exists m UU, 0 < m /\ Forall2 (is_mat m) ks UU /\ length Us = length mus /\ (pm_hasin d' = true -> pm_m d' = Some m /\ Us = map (fun U => Some (M U)) UU /\ exists us, inputs = Some us /\ UU = map atleast_2d us) /\
    (pm_hasin d' = false -> pm_m d' = Some 0)).
  { rewrite Hh. destruct (pm_hasin d).
    - destruct (pp_in eq_refl) as (us & m & -> & -> & Em & HL & HR & HC). exists m, (map atleast_2d us). destruct G3 as [G3 _].
      destruct (good_blocks m us G3 HR) as (C1 & _ & C3). rewrite (same_cols_spec _ _ HC), <- pp_Q in C1. fold ks in C1.
      split. { apply C3. destruct us, mus; try discriminate; congruence. }
      split; auto. split; [rewrite map_length; auto|]. split; [|discriminate]. intros _. split; auto. split; [rewrite map_map; auto|]. eauto.
    - destruct (pp_noin eq_refl) as [Em EU]. exists 1, (map (fun k => mzeros 1 k) ks). split; auto. split.
      { clear. induction ks; cbn; constructor; auto. apply is_mat_mzeros. }
      split. { rewrite EU. destruct inputs as [us|]; [rewrite map_length; apply G3|apply repeat_length]. } split; [discriminate|auto]. }
  destruct HM as (m & UU & Hm & HU & HLU & Hin & Hno).
  assert (HK : forall i, In i (pm_known d') -> exists o, nth_error (pm_ops d') i = Some o /\ psized r m o /\ (forall mu, In mu mus -> eok o mu) /\ (ptakes o = true -> Us = map (fun U => Some (M U)) UU)).
  { intros i Hi. destruct (pi_known X d' H' i Hi) as (o & r0 & m0 & Eo & Hr0 & Hm0 & HS). exists o. split; auto. assert (Ho := nth_error_In _ _ Eo).
    assert (E0 := psized_rows r0 m0 o HS). assert (E1 := pp_rows o r0 Ho E0). assert (r0 = r) by congruence. subst r0.
    split. { destruct (ptakes o) eqn:Et; [|apply (psized_noinput r m0); auto]. assert (E2 := psized_inputs r m0 o Hr HS Et). assert (E3 := pp_ins o m0 Ho Et E2).
      destruct (Hin (existsb_takes X d' o H' Ho Et)) as [E4 _]. assert (m0 = m) by congruence. subst; auto. }
    split. { apply (eok_of d'); auto. eapply Forall_impl; [|exact G4]. intros mu. apply (coeffs_frame X); auto. }
    intros Ht. apply Hin. eapply existsb_takes; eauto. }
  destruct (psubtract_ok r m (pm_ops d') mus Qs Us UU ks Hr Hm HLk B1 HU (pm_known d') _ Zs HK B4 pp_sub) as (P1 & P2 & P3).
  exists m, p, ks, UU. repeat (split; [solve [auto]|]). split; [split; auto|]. repeat (split; [solve [auto]|]). auto. Qed.

Lemma pfit_solver_inv X d mus states lhs inputs d' x : pext_ok X -> pinv X d -> fit_args d mus states lhs inputs -> pm_intrusive d = false ->
  pfit_solver X d mus states lhs inputs = (d', x) ->
  pframe X d d' /\ (forall s, pm_solver d' = Some s -> winv (px_l X) s) /\
  (x = Ok tt -> NoDup mus -> psamepen d d' /\ exists r m p ks Us, ks = map ncols (map atleast_2d states) /\ pfitted X d' r m p mus ks (map atleast_2d states) (map atleast_2d lhs) Us inputs).
Proof. intros HX H HA Hi E. unfold pfit_solver in E. destruct (pprocess d mus states lhs inputs) as [d1 x1] eqn:EP.
  destruct (pprocess_inv X d mus states lhs inputs d1 x1 HX H EP) as (F1 & S1 & T1 & C1 & K1). clear EP.
  assert (HW1 : forall s, pm_solver d1 = Some s -> winv (px_l X) s) by (rewrite S1; apply (pi_solver X d H)).
  assert (H1 := pframe_inv X d d1 HX H F1 HW1).
  destruct x1 as [[[Qs Zs] oUs]|e]; cbn [pseq] in E. 2:{ injection E as <- <-. split; auto. split; auto. discriminate. }
  destruct (K1 Qs Zs oUs eq_refl) as [r HP]. clear K1.
  destruct (set_training mus (pm_ops d1)) as [l xl] eqn:ET. destruct (set_training_ok mus (pm_ops d1) l xl ET) as [LT GT]. clear ET.
  assert (HK1 : forall i o, In i (pm_known d1) -> nth_error (pm_ops d1) i = Some o -> nth_error l i = Some o).
  { intros i o Hk Eo. destruct (GT i o Eo) as (o' & Eo' & [->|(t & t' & -> & -> & Es)] & _); auto. exfalso.
    destruct (pi_known X d1 H1 i Hk) as (o2 & r2 & m2 & E2 & _ & _ & HS). rewrite Eo in E2. injection E2 as <-. destruct HS as (ops & f & _ & _ & _ & Ef & _).
    apply i_set_params_inv in Es. destruct Es as [Es _]. congruence. }
  assert (F2 : pframe X d1 (pw_ops l d1)).
  { constructor; cbn [pw_ops pm_kind pm_infer pm_known pm_hasin pm_intrusive pm_ops]; auto. intros i o Eo. destruct (GT i o Eo) as (o' & Eo' & D & _). exists o'. split; auto. split.
    - destruct D as [->|(t & t' & -> & -> & Es)]; [apply psame_refl|]. apply i_set_params_inv in Es. destruct Es as (_ & _ & A & B & _). split; auto. intros C HC. left. congruence.
    - intros Hk. rewrite (HK1 i o Hk Eo) in Eo'. injection Eo' as <-. apply pkept_refl. }
  assert (F12 := pframe_trans X _ _ _ F1 F2).
  destruct xl as [[]|e]. 2:{ injection E as <- <-. split; auto. split; auto. discriminate. }
  destruct (passemble (pw_ops l d1) mus Qs oUs) as [D|e] eqn:EA. 2:{ injection E as <- <-. split; auto. split; auto. discriminate. }
  destruct (hstack_r Zs) as [Z|e] eqn:EZ. 2:{ injection E as <- <-. split; auto. split; auto. discriminate. }
  cbn [pw_ops pm_solver] in E. destruct (pm_solver d1) as [s|] eqn:Es. 2:{ injection E as <- <-. split; auto. split; [cbn; rewrite Es; discriminate|discriminate]. }
  destruct (lsq_fit (px_l X) s (M D) (M Z)) as [s' x'] eqn:EF.
  assert (Hmus : mus <> []).
  { intros ->. destruct HP. apply map_eq_nil in pp_Q || idtac. destruct lhs; [|discriminate]. clear - pp_sub EZ.
    assert (Zs = []) as ->; [|discriminate]. revert pp_sub. generalize (pm_known d1). cbn [map]. induction l as [|i ix IH]; cbn [psubtract]; intros K; [congruence|].
    unfold nth_r in K. destruct (nth_error (pm_ops d1) i); [|discriminate]. cbn in K. apply IH; auto. }
  destruct (pprocessed_data X d d1 mus states lhs inputs r Qs Zs oUs HX H H1 F1 HA Hmus HP) as (m & p & ks & UU & Hr & Hm & Hks & HLk & HU & Hpd & Ek & EQ & BQ & BL & BU & LU & Hin & Hno & HK & BZ & HE & HV).
  assert (HI : forall i, In i (pm_infer d1) -> exists o, nth_error l i = Some o /\ readyi p mus o /\ (ptakes o = true -> oUs = map (fun U => Some (M U)) UU)).
  { intros i Hii. destruct (nth_error_lt (pm_ops d1) i) as [o Eo]; [apply (pinv_lt X d1); auto|]. assert (Ho := nth_error_In _ _ Eo). destruct (GT i o Eo) as (o' & Eo' & _ & G). specialize (G eq_refl). exists o'. split; auto.
    assert (HAo := pi_aux X d1 H1 o Ho).
    split.
    - destruct o as [o|a|t]; [subst; exact I| |].
      + subst o'. split; auto. apply Forall_forall. intros mu Hmu. split. { assert (Hx := Hpd (PAff a) Ho eq_refl). cbn in Hx. destruct HU as [HU _]. rewrite Hx. apply HU; auto. }
        destruct HA as (_ & _ & _ & HA). rewrite Forall_forall in HA. apply (coeffs_frame X d d1 mu F1 (HA mu Hmu)). auto.
      + destruct G as (t' & -> & G). apply i_set_params_inv in G. destruct G as (_ & _ & A1 & A2 & A3 & A4 & _). split; auto. split.
        * destruct mus as [|mu ms]; [congruence|]. rewrite (A4 mu) by (left; auto). f_equal. apply HU. left; auto.
        * intros C HC. apply HAo. congruence.
    - intros Ht. apply Hin. apply (existsb_takes X d1 o); auto. destruct (GT i o Eo) as (o2 & Eo2 & [->|(t & t' & -> & -> & Et)] & _); rewrite Eo' in Eo2; injection Eo2 as ->; auto.
      apply i_set_params_inv in Et. destruct Et as (_ & _ & A & _). unfold ptakes, pcls in *. congruence. }
  assert (HDS : datashape r m ks Qs UU) by (split; auto).
  destruct (mapM_ex (fun i => do o <- nth_r l i; do B <- pop_datablock o mus Qs oUs; Ok (mT B)) (fun i Bt => exists B, Bt = mT B /\ exists o, nth_error l i = Some o /\ readyi p mus o /\ blockspec r m mus ks Qs UU o B) (pm_infer d1)) as (Bts & EB & HB).
  { intros i Hii. destruct (HI i Hii) as (o & Eo & Ho & Hto). unfold nth_r. rewrite Eo. cbn [bind]. destruct (pop_block r m mus ks Qs UU oUs o Hr Hm Hmus HLk HDS (readyi_ready _ _ _ Ho) LU Hto) as (B & E1 & E2).
    rewrite E1. cbn [bind]. exists (mT B). split; auto. exists B. split; auto. exists o. auto. }
  assert (HBs : exists Bs, Bts = map mT Bs /\ Forall2 (fun i B => exists o, nth_error l i = Some o /\ readyi p mus o /\ blockspec r m mus ks Qs UU o B) (pm_infer d1) Bs).
  { clear - HB. induction HB as [|i Bt ix Bts (B & -> & HB1) HB IH]; [exists []; auto|]. destruct IH as (Bs & -> & IH). exists (B :: Bs). auto. }
  destruct HBs as (Bs & -> & HBs). clear HB.
  assert (Hne : pm_infer d1 <> []). { rewrite (pfr_infer X d d1 F1). rewrite (pi_intr X d H) in Hi. intros K. rewrite K in Hi. discriminate. }
  assert (Hcols : 0 < lsumn ks). { apply lsumn_pos; [destruct ks, mus; cbn in *; congruence|]. apply Forall_forall. exact Hks. }
  set (ws := map (wdp r m (length mus) l) (pm_infer d1)).
  assert (HBl : blocks (lsumn ks) ws (map mT Bs)).
  { unfold ws. clear - HBs Hr Hm Hmus Hcols. induction HBs as [|i B ix Bs (o & Eo & Ho & HB) HBs IH]; cbn [map]; constructor; auto. unfold wdp. rewrite Eo. apply is_mat_mT; [apply HB|]. eapply pw_pos; eauto. }
  unfold passemble in EA. cbn [pw_ops pm_ops pm_infer] in EA. rewrite EB in EA. cbn [bind] in EA.
  assert (HBne : map mT Bs <> []). { destruct HBs; [congruence|cbn; congruence]. }
  rewrite (hstack_r_ok _ _ _ HBl HBne) in EA. injection EA as ED.
  assert (HD : is_mat (lsumn ks) (lsumn ws) D). { rewrite <- ED. apply is_mat_hstack; auto. }
  assert (Hws : 0 < lsumn ws). { apply lsumn_pos; [unfold ws; destruct (pm_infer d1); cbn; congruence|]. unfold ws. intros w Hw. apply in_map_iff in Hw. destruct Hw as (i & <- & Hii).
    destruct (HI i Hii) as (o & Eo & Ho & _). unfold wdp. rewrite Eo. eapply pw_pos; eauto. }
  assert (HZne : Zs <> []). { assert (Hx := Forall2_len _ _ _ BZ). destruct Zs, ks, mus; cbn in *; congruence. }
  rewrite (hstack_r_ok r ks Zs BZ HZne) in EZ. injection EZ as <-.
  assert (HZ : is_mat r (lsumn ks) (hstack Zs)) by (apply is_mat_hstack; auto).
  assert (GD : good_arr (M D)) by (eexists _, _; split; [exact Hcols|]; split; [exact Hws|exact HD]).
  assert (GZ : good_arr (M (hstack Zs))) by (eexists _, _; split; [exact Hr|]; split; [exact Hcols|exact HZ]).
  assert (HWs := HW1 s eq_refl).
  assert (W' : winv (px_l X) s'). { assert (Hx := lsq_fit_winv (px_l X) s (M D) _ HWs GD GZ). rewrite EF in Hx. exact Hx. }
  assert (F3 : forall t, pframe X d (pw_s t (pw_solver (Some s') (pw_ops l d1)))). { intros t. eapply pframe_trans; [exact F12|]. apply pframe_ops_eq; reflexivity. }
  destruct x' as [[]|e].
  2:{ injection E as <- <-. split. { eapply pframe_trans; [exact F12|]. apply pframe_ops_eq; reflexivity. } split; [cbn; intros s0 [= <-]; exact W'|discriminate]. }
  injection E as <- <-. split; [apply F3|]. split; [cbn; intros s0 [= <-]; exact W'|]. intros _ HN.
  destruct (lsq_fit_clean (px_l X) s (M D) _ s' (proj1 HX) HWs GD GZ EF) as (D' & ED' & HC & HPn). injection ED' as <-. cbn [atleast_2d] in HC.
  split. { unfold psamepen. cbn. intros s0 s1 w E0 [= <-]. rewrite <- S1 in E0. injection E0 as <-. apply HPn. }
  exists r, m, p, ks, UU. rewrite <- EQ. split; auto. constructor; cbn [pw_s pw_solver pw_ops pm_ops pm_infer pm_r pm_m pm_s pm_hasin pm_known pm_solver]; auto.
  - eapply pframe_inv; [exact HX|exact H|apply F3|]. cbn. intros s0 [= <-]. exact W'.
  - repeat (split; [solve [auto]|]). auto.
  - apply HP.
  - intros Hh. destruct (Hin Hh) as (A1 & _ & A3). auto.
  - intros i Hk. destruct (HK i Hk) as (o & Eo & A1 & A2 & _). exists o. split; [apply HK1; auto|]. split; auto. split; auto. intros b Hb. eapply HE; eauto.
  - intros i Hii. destruct (HI i Hii) as (o & Eo & Ho & _). eauto.
  - exists s', Bs, (hstack Zs). split; auto. split; auto. split. { eapply F2_impl; [|exact HBs]. intros i B (o & A1 & A2 & A3). eauto. }
    rewrite ED. split; auto. split; auto. intros b i j Hb Hir Hj.
    assert (LZ := Forall2_len _ _ _ BZ). rewrite (hstack_get r ks Zs Hr BZ b (nth b Zs []) (nth b ks 0)) by (auto; apply nth_error_nth'; lia).
    rewrite HV by auto. f_equal. f_equal. apply map_ext_in. intros a Ha. unfold pposval. destruct (HK a Ha) as (o & Eo & _). rewrite Eo, (HK1 a o Ha Eo). reflexivity. Qed.

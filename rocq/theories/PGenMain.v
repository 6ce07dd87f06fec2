(* PGenMain.v -- the statements of Prop_PGen.v. *)
From Coq Require Import ZArith String.
From Verif Require Import LinAlg MatAlg BlockAlg TupleFinal OpsProofs AffProofs PolyOpProofs MonoPredict ParaVals.
From Verif Require Export PGenProofs.
#[local] Open Scope nat_scope.
#[local] Open Scope list_scope.

(* ---- invariant ----------------------------------------------------------------------------------------------------------------- *)
Record yinv (X : lsx) (args : list yarg) (d : ymodel) : Prop := {
  yi_ops : Forall2 ymade args (ym_ops d);
  yi_hasin : ym_hasin d = existsb (fun a => y_inputs (ya_cls a)) args;
  yi_solver : forallb ygivenb args = false -> exists s, ym_solver d = Some s /\ winv X s }.
Lemma y_unknown_given args : y_some_unknown args <-> forallb ygivenb args = false.
Proof. split.
  - intros (a & H & E). destruct (forallb ygivenb args) eqn:EF; auto. rewrite forallb_forall in EF. specialize (EF a H). unfold ygivenb in EF. rewrite E in EF. discriminate.
  - induction args as [|a args IH]; cbn; [discriminate|]. unfold ygivenb at 1. destruct (ya_ent a) eqn:E; cbn.
    + intros H. destruct (IH H) as (b & Hb & Eb). exists b. split; [right; auto|auto].
    + intros _. exists a. split; [left; auto|auto]. Qed.

Lemma ysync_ok n d d' args : ysync n d = Ok d' -> Forall2 ymade args (ym_ops d) ->
  Forall2 ymade args (ym_ops d') /\ ym_hasin d' = ym_hasin d /\ ym_r d' = ym_r d /\ ym_m d' = ym_m d /\ ym_solver d' = ym_solver d.
Proof. intros E HM. unfold ysync in E. apply bind_ok in E. destruct E as (p0 & _ & E). destruct (match n with Some _ => _ | None => _ end) in E; [discriminate|].
  destruct (match n with Some _ => _ | None => _ end) in E.
  - destruct (_ && _); [discriminate|]. injection E as <-. cbn. split; auto. apply map_made; auto. intros. apply set_p_made; auto.
  - injection E as <-. cbn. auto. Qed.
(* a parametric operator whose parameters have p components *)
Definition sized (p : nat) (o : yop) : Prop := y_par (yo_cls o) = true -> yo_p o = Some p.
Lemma ysync_sized p d d' : ysync (Some p) d = Ok d' -> Forall (sized p) (ym_ops d').
Proof. intros E. unfold ysync in E. apply bind_ok in E. destruct E as (p0 & E0 & E).
  assert (HA : forall q, In q (ypdims (ym_ops d)) -> p0 = Some q).
  { unfold one_of in E0. destruct (ypdims (ym_ops d)) as [|a t]; [intros q []|]. destruct (forallb _ _) eqn:EF; [|discriminate]. injection E0 as <-. intros q [<-|Hq]; auto.
    rewrite forallb_forall in EF. apply EF, Nat.eqb_eq in Hq. congruence. }
  assert (HB : forall q, In q (ypdims (ym_ops d)) -> q = p).
  { intros q Hq. rewrite (HA q Hq) in E. destruct (q =? p) eqn:EQ; [apply Nat.eqb_eq; auto|discriminate]. }
  assert (HC : ym_ops d' = map (set_p p) (ym_ops d)).
  { destruct p0 as [q|]; [destruct (q =? p) eqn:EQ; [|discriminate]; apply Nat.eqb_eq in EQ; subst q; cbn [negb] in E|rewrite Nat.eqb_refl in E; cbn [negb] in E];
    (destruct (_ && _) in E; [discriminate|]; injection E as <-; reflexivity). }
  rewrite HC. clear - HB. induction (ym_ops d) as [|o l IH]; cbn; constructor.
  - unfold sized, set_p. destruct (y_par (yo_cls o)) eqn:EP; [|rewrite EP; discriminate]. destruct (yo_p o) eqn:Eo; [|intros _; reflexivity]. intros _. rewrite Eo. f_equal. apply HB. unfold ypdims. cbn. rewrite EP, Eo. cbn. auto.
  - apply IH. intros q Hq. apply HB. unfold ypdims in *. cbn. destruct (if y_par _ then _ else _); cbn; auto. Qed.
Lemma ymk_inv X args s d : (forall s0, s = Some s0 -> fresh_solver (x_lsvd X) s0) -> ymk args s = Ok d -> yinv X args d.
Proof. intros HS E. unfold ymk in E. destruct (_ =? 0); [discriminate|]. destruct (negb _); [discriminate|].
  apply bind_ok in E. destruct E as (r & _ & E). apply bind_ok in E. destruct E as (m & _ & E).
  assert (HM := yinit_made args). destruct (ysync_ok _ _ _ args E HM) as (A & B & _ & _ & C). constructor; auto.
  - rewrite B. cbn. apply made_yinputs; auto.
  - rewrite C. cbn [ym_solver]. rewrite (made_yknown args _ HM). intros ->. eexists. split; [reflexivity|]. destruct s; [apply fresh_winv; auto|apply new_plain_winv]. Qed.

Lemma traj_rows n ks As d : trajectories n ks As -> ks <> [] -> all_rows d As = true -> d = Some n.
Proof. destruct 1 as [|k A ks As [_ H] HF]; [congruence|]. intros _ E. cbn in E. apply andb_prop in E. destruct E as [E _]. rewrite (is_mat_nrows _ _ _ H) in E.
  unfold is_dim in E. destruct d as [a|]; [|discriminate]. apply Nat.eqb_eq in E. congruence. Qed.

Lemma yprocess_ok X r m args xs d0 mus states lhs inputs ks Qs Zs Us d1 Qs0 Zs' oUs : 0 < r -> Forall2 (ydescribed r m) args xs -> yinv X args d0 ->
  ydata r m args mus states lhs inputs ks Qs Zs Us -> yprocess d0 mus states lhs inputs = Ok (d1, Qs0, Zs', oUs) ->
  Qs0 = Qs /\ (exists p, params_dim mus = Ok p /\ Forall (sized p) (ym_ops d1)) /\ Forall2 ymade args (ym_ops d1) /\ ym_hasin d1 = ym_hasin d0 /\ ym_solver d1 = ym_solver d0 /\ ym_r d1 = Some r /\ (y_any_inputs args -> ym_m d1 = Some m) /\
  (y_any_inputs args -> oUs = map (fun U => Some (M U)) Us) /\ length oUs = length ks /\ trajectories r ks Zs' /\
  forall i j row, i < length ks -> j < nth i ks 0 -> row < r ->
    mget (traj Zs' i) row j = (mget (traj Zs i) row j - ygiven mus i xs (colv r (traj Qs i) j) (colv m (traj Us i) j) row)%R.
Proof. intros Hr HF [I1 I2 I3] [Hn Hl [EQ HQ] [EZ HZ] HU Hin Hlen] E. assert (Hne : ks <> []) by (eapply ks_ne; eauto). unfold yprocess in E.
  apply bind_ok in E. destruct E as (dc & Ec & E). unfold yclear in Ec. apply bind_ok in Ec. destruct Ec as (r0 & _ & Ec). apply bind_ok in Ec. destruct Ec as (m0 & _ & Ec). injection Ec as <-.
  apply bind_ok in E. destruct E as (p & Ep & E). apply bind_ok in E. destruct E as (d2 & E2 & E). assert (HZp := ysync_sized p _ d2 E2).
  assert (HM0 : Forall2 ymade args (map yclear_op (ym_ops d0))) by (apply map_made; auto; intros; apply clear_made1; auto).
  destruct (ysync_ok _ _ _ args E2 HM0) as (A1 & A2 & _ & _ & A3). cbn [yw_dims yw_ops ym_hasin ym_solver] in A2, A3. rewrite EQ, EZ in E.
  apply bind_ok in E. destruct E as (d3 & E3 & E).
  assert (B : ym_ops d3 = ym_ops d2 /\ ym_hasin d3 = ym_hasin d2 /\ ym_solver d3 = ym_solver d2).
  { destruct (ym_r d2); [injection E3 as <-; auto|]. destruct Qs; [discriminate|]. unfold yset_r in E3. destruct (forallb _ _) in E3; [|discriminate]. injection E3 as <-. auto. }
  destruct B as (B1 & B2 & B3).
  destruct (negb (length Qs =? length mus)); [discriminate|]. destruct (all_rows (ym_r d3) Qs) eqn:ER; [|discriminate]. cbn [negb] in E.
  assert (HR3 := traj_rows r ks Qs _ HQ Hne ER).
  destruct (negb (length Zs =? length mus)); [discriminate|]. destruct (all_rows (ym_r d3) Zs); [|discriminate]. cbn [negb] in E. destruct (negb (same_cols Zs Qs)); [discriminate|].
  apply bind_ok in E. destruct E as ([d4 oU4] & E4 & E). cbn [fst snd] in E. apply bind_ok in E. destruct E as (Z1 & E5 & E). injection E as <- <- <- <-.
  assert (C : ym_ops d4 = ym_ops d3 /\ ym_hasin d4 = ym_hasin d3 /\ ym_solver d4 = ym_solver d3 /\ ym_r d4 = Some r /\ (y_any_inputs args -> ym_m d4 = Some m) /\
    (y_any_inputs args -> oU4 = map (fun U => Some (M U)) Us) /\ length oU4 = length ks).
  { destruct (ym_hasin d3) eqn:EH.
    - assert (Hany : y_any_inputs args) by (apply y_any_ex; congruence). destruct (Hin Hany) as (us & -> & EU). rewrite EU in E4.
      apply bind_ok in E4. destruct E4 as (d5 & E5' & E4).
      assert (D : ym_ops d5 = ym_ops d3 /\ ym_hasin d5 = ym_hasin d3 /\ ym_solver d5 = ym_solver d3 /\ ym_r d5 = ym_r d3).
      { destruct (ym_m d3) as [[|n]|]; [|injection E5' as <-; auto|];
        (destruct Us; [discriminate|]; unfold yset_m in E5'; destruct (_ && _) in E5'; [discriminate|]; destruct (forallb _ _) in E5'; [|discriminate]; injection E5' as <-; auto). }
      destruct D as (D1 & D2 & D3 & D4). destruct (negb _); [discriminate|]. destruct (all_rows (ym_m d5) Us) eqn:EU2; [|discriminate]. cbn [negb] in E4. destruct (negb _); [discriminate|].
      injection E4 as <- <-. rewrite D1, D2, D3, D4, EH. repeat (split; auto).
      + intros _. eapply traj_rows; eauto.
      + rewrite map_length. apply (traj_len m ks Us HU).
    - assert (Hno : ~ y_any_inputs args) by (rewrite y_any_ex; congruence). injection E4 as <- <-. rewrite EH. repeat (split; auto); try tauto.
      destruct inputs as [us|]; [rewrite map_length, (Hlen us eq_refl); auto|rewrite repeat_length; auto]. }
  destruct C as (C1 & C2 & C3 & C4 & C5 & C6 & C7).
  assert (HM4 : Forall2 ymade args (ym_ops d4)) by (rewrite C1, B1; auto).
  destruct (ysubtract_ok r m ks mus Qs Us oU4 Hr Hl HQ HU C7 args xs (ym_ops d4) HF HM4 C6 Zs Z1 HZ E5) as [F1 F2].
  split; auto. split; [exists p; split; auto; rewrite C1, B1; auto|]. repeat (split; auto); congruence. Qed.

(* ---- fit() and refit() --------------------------------------------------------------------------------------------------------------- *)
Record yfitted (X : lsx) (r m : nat) (args : list yarg) (xs : list ydesc) (mus : list pval) (ks : list nat) (Qs Zs Us : list mat) (d : ymodel) : Prop := {
  yf_inv : yinv X args d;
  yf_train : Forall (trained_on mus) (ym_ops d);
  yf_r : ym_r d = Some r;
  yf_m : y_any_inputs args -> ym_m d = Some m;
  yf_s : ym_s d = Some (length mus);
  yf_solver : exists s, ym_solver d = Some s /\ winv X s /\ clean X s (yD r m mus ks Qs Us xs) (yL r m mus ks Qs Zs Us xs) }.

Lemma train_all mus p args l l' : params_dim mus = Ok p -> Forall (sized p) l -> Forall2 ymade args l -> mapM (ytrain mus p) l = Ok l' -> Forall2 ymade args l' /\ Forall (trained_on mus) l'.
Proof. intros Hp HZ HM E. apply mapM_Forall2 in E. revert args HM HZ. induction E as [|o o' l l' E HF IH]; intros args HM HZ; inversion HM as [|a ? args0 ? Hm HM0]; subst; [split; constructor|].
  inversion HZ as [|? ? HZ1 HZ0]; subst. destruct (train_made mus p a o o' Hm E) as [A B]. destruct (IH args0 HM0 HZ0) as [C D]. split; constructor; auto. split; auto. intros HP. exists p. split; auto.
  unfold ytrain in E. destruct (y_itp (yo_cls o)) eqn:EI; [|injection E as <-; auto]. destruct (yo_ent o); [discriminate|]. destruct mus; [discriminate|]. injection E as <-. reflexivity. Qed.

Section Fit.
  Variables (X : lsx) (r m : nat) (args : list yarg) (xs : list ydesc) (mus : list pval) (states lhs : list arr) (inputs : option (list arr)) (ks : list nat) (Qs Zs Us : list mat).
  Hypotheses (HX : lsx_ok X) (Hr : 0 < r) (HF : Forall2 (ydescribed r m) args xs) (Hun : forallb ygivenb args = false)
    (HD : ydata r m args mus states lhs inputs ks Qs Zs Us).
  Notation K := (lsumn ks).
  Notation ga := (fargs r m mus xs).
  Notation gf := (ffeats r mus xs).
  Lemma fdesc : Forall2 (described r (S m)) ga gf.
  Proof. apply flat_described; auto. eapply described_wide; eauto. apply HD. Qed.
  Lemma fgiven : forallb given ga = false.
  Proof. rewrite given_flat. rewrite <- (described_given r m args xs HF). auto. Qed.
  Lemma fK : 0 < K.
  Proof. destruct HD as [Hn Hl [_ HQ] _ _ _ _]. eapply lsumn_ks_pos; eauto. eapply ks_ne; eauto. Qed.
  Lemma fgoodD : good_arr (M (yD r m mus ks Qs Us xs)).
  Proof. exists K, (unknowns ga gf). split; [apply fK|]. split; [eapply unknowns_pos; [apply fdesc|apply fgiven]|]. apply gD_shape; [apply fdesc|apply fgiven]. Qed.
  Lemma fgoodL : good_arr (M (yL r m mus ks Qs Zs Us xs)).
  Proof. exists r, K. split; auto. split; [apply fK|]. apply is_mat_tab2. Qed.

  Lemma yfit_inv d d' : yinv X args d -> yfit X d mus states lhs inputs = Ok d' ->
    exists d1, yfitted X r m args xs mus ks Qs Zs Us d1 /\ yrefit X d1 = Ok d' /\
      forall s0, ym_solver d = Some s0 -> exists s1, ym_solver d1 = Some s1 /\ forall w, penalty s1 w = penalty s0 w.
  Proof. intros HI E. unfold yfit, yintrusive in E. rewrite (made_yknown args _ (yi_ops _ _ _ HI)), Hun in E.
    apply bind_ok in E. destruct E as ([[[d1 Qs0] Zs'] oUs] & EP & E).
    destruct (yprocess_ok X r m args xs d mus states lhs inputs ks Qs Zs Us d1 Qs0 Zs' oUs Hr HF HI HD EP) as (-> & (p & Ep & AZ) & A1 & A2 & A3 & A4 & A5 & A6 & A7 & A8 & A9).
    destruct HD as [Hn Hl [EQ HQ] [EZ HZ] HU Hin Hlen].
    rewrite Ep in E. cbn [bind] in E. apply bind_ok in E. destruct E as (l & ET & E). destruct (train_all mus p args _ l Ep AZ A1 ET) as [B1 B2].
    apply bind_ok in E. destruct E as (D & ED & E). apply bind_ok in E. destruct E as (L & EL & E).
    assert (D = yD r m mus ks Qs Us xs) as -> by (eapply yassemble_ok; eauto). assert (L = yL r m mus ks Qs Zs Us xs) as -> by (apply (yL_ok r m mus ks Qs Zs Us) with (Zs' := Zs'); auto).
    rewrite A3 in E. destruct (yi_solver _ _ _ HI Hun) as (s & Es & HW). rewrite Es in E. destruct (lsq_fit X s _ _) as [s' x] eqn:EF. destruct x as [[]|]; [|discriminate]. cbn [bind] in E.
    destruct (lsq_fit_clean X s _ _ s' HX HW fgoodD fgoodL EF) as (D0 & ED0 & HC & HP). injection ED0 as <-. cbn [atleast_2d] in HC.
    assert (W' := lsq_fit_winv X s _ _ HW fgoodD fgoodL). rewrite EF in W'. cbn [fst] in W'.
    eexists. split; [|split; [exact E|]].
    - constructor; cbn; auto.
      + constructor; cbn; auto. { rewrite A2. apply (yi_hasin _ _ _ HI). } eauto.
      + eauto.
    - cbn. intros s0 E0. exists s'. split; auto. assert (s0 = s) as -> by congruence. auto. Qed.

  Lemma yrefit_inv d d' : yfitted X r m args xs mus ks Qs Zs Us d -> yrefit X d = Ok d' -> exists s O, ym_solver d = Some s /\ ym_solver d' = Some s /\ lsq_solve X s = Ok O /\
    is_mat r (unknowns ga gf) O /\ yfitted X r m args xs mus ks Qs Zs Us d' /\
    map yo_ent (filter (fun o => negb (yo_known o)) (ym_ops d')) = map Some (learned ga (place ga gf O 0)).
  Proof. intros [HI HT Hrr Hmm Hss (s & Es & HW & HC)] E. unfold yrefit, yintrusive in E. rewrite (made_yknown args _ (yi_ops _ _ _ HI)), Hun, Es in E.
    apply bind_ok in E. destruct E as (O & EO & E). rewrite Hss, Hrr in E. apply bind_ok in E. destruct E as (l & EX & E). injection E as <-.
    assert (HO : is_mat r (unknowns ga gf) O).
    { destruct (lsq_solve_clean X s _ _ O HX HC EO) as [HO _]. destruct (gD_dims r (S m) K (hstack Qs) (flatU ks Us) ga gf fK fdesc fgiven) as [_ ED2].
      unfold yD, yL in HO. rewrite ED2, gL_dims in HO. auto. }
    destruct (yextract_ok r m mus O (unknowns ga gf) (ym_m d) args xs) with (l := ym_ops d) (idx := 0) (l' := l) as (A & B & C); auto.
    { apply HD. } { apply HI. } { rewrite unknowns_flat. lia. }
    exists s, O. split; auto. split; auto. split; auto. split; auto. split; auto. constructor; cbn; auto.
    - constructor; cbn; auto; [apply (yi_hasin _ _ _ HI)|apply (yi_solver _ _ _ HI)].
    - eauto. Qed.
End Fit.

(* ---- rhs() ----------------------------------------------------------------------------------------------------------------------------- *)
Lemma init_fill l Es : map snd l = map Some Es -> map ginit l = gfill l Es.
Proof. revert Es. induction l as [|a l IH]; intros [|E Es] H; cbn in *; try discriminate; auto. injection H as H1 H2. rewrite (IH Es H2). f_equal. unfold ginit. rewrite H1. reflexivity. Qed.
Lemma all_valued r m l gs Es : Forall2 (described r m) l gs -> map snd l = map Some Es -> valued r l gs Es.
Proof. intros HF. revert Es. induction HF as [|a g l gs (_ & H) HF IH]; intros [|E Es] HE; cbn in *; try discriminate; auto. injection HE as H1 H2. split; [auto|]. split; [congruence|]. auto. Qed.
Lemma gmk_given r m l gs Es : l <> [] -> Forall2 (described r m) l gs -> map snd l = map Some Es -> exists e, gmk l None = Ok e /\ gm_ops e = gfill l Es.
Proof. intros Hne HF HE. unfold gmk. change (map (fun a : ocls * option mat => {| go_cls := fst a; go_ent := snd a; go_known := match snd a with Some _ => true | None => false end |}) l) with (map ginit l).
  assert (Hl : length (map ginit l) =? 0 = false) by (rewrite map_length; destruct l; [congruence|reflexivity]). rewrite Hl.
  assert (HK : to_infer (map ginit l) = []).
  { clear - HE. revert Es HE. induction l as [|a l IH]; intros [|E Es] H; cbn in *; try discriminate; auto. injection H as H1 H2. unfold given. rewrite H1. cbn. eauto. }
  rewrite HK. cbn [map nodup length Nat.eqb negb]. unfold gstate_dim, ginput_dim.
  destruct (forall_one_of r _ (init_rows r m l gs HF)) as (r0 & -> & _). cbn [bind]. destruct (forall_one_of m _ (init_cols r m l gs HF)) as (m0 & -> & _).
  destruct (existsb _ _); cbn [bind]; eexists; (split; [reflexivity|]); cbn [gm_ops]; apply init_fill; auto. Qed.

(* evaluating the operators of a fitted model *)
Lemma yeval_all r m mus mu : mus <> [] -> forall args xs l Es, Forall2 (ydescribed r m) args xs -> Forall2 ymade args l -> Forall (trained_on mus) l ->
  Forall2 (y_defined mus mu) args xs -> yshapes r mus xs Es -> map yo_ent (filter (fun o => negb (yo_known o)) l) = map Some Es ->
  exists l1 gs Fs, mapM (yeval mu) l = Ok l1 /\ length l1 = length l /\ Forall2 (described r m) l1 gs /\ map snd l1 = map Some Fs /\ (any_inputs l1 -> y_any_inputs args) /\
    forall q u i, is_vec r q -> is_vec m u -> i < r -> value gs Fs q u i = yvalue_at mus mu xs Es q u i.
Proof. intros Hn args xs l Es HF. revert l Es. induction HF as [|a x args xs HD HF IH]; intros l Es HM HT Hdef HE Hent; inversion HM as [|? o ? l0 Hmade HM0]; subst.
  - exists [], [], []. cbn. repeat split; auto. intros (a & [] & _).
  - inversion HT as [|? ? HT1 HT0]; subst. inversion Hdef as [|? ? ? ? Hd1 Hd0]; subst. assert (EK := mk_known _ _ Hmade). rewrite (described_kind r m a x HD) in EK.
    cbn [filter] in Hent. rewrite EK in Hent. destruct HT1 as [HT1 HP1]. rewrite (mk_cls _ _ Hmade) in HT1, HP1. destruct Hd1 as [Hdim Hd1].
    assert (Hfit : y_par (ya_cls a) = true -> y_fits o mu = true).
    { intros HP. destruct (HP1 HP) as (p & Ep & Eo). rewrite (Hdim HP) in Ep. injection Ep as <-. unfold y_fits. rewrite Eo. apply Nat.eqb_refl. }
    cbn [mapM]. unfold yeval at 1. rewrite (mk_cls _ _ Hmade).
    destruct x as [f|v].
    + destruct Es as [|E Es]; cbn [yshapes] in HE; [tauto|]. destruct HE as [HE1 HE]. cbn [negb map] in Hent. injection Hent as He Hent. rewrite He.
      destruct (IH l0 Es HM0 HT0 Hd0 HE Hent) as (l1 & gs & Fs & E1 & Hlen & HG & HS & HA & HV). rewrite E1.
      unfold ydescribed in HD. destruct (ya_cls a) as [c|c] eqn:EC; destruct (ya_ent a); try tauto; cbn [y_itp y_par] in *.
      * destruct HD as (g & HL & ->). cbn [bind]. exists ((c, Some E) :: l1), (g :: gs), (E :: Fs). split; auto. split; [cbn; auto|]. split; [constructor; auto; split; auto; cbn; intros ? [= <-]; assumption|].
        split; [cbn; congruence|]. split.
        { intros (b & [<-|Hb] & Hc); [exists a; split; [left; auto|rewrite EC; auto]|]. destruct HA as (b' & Hb' & Hc'); [exists b; auto|]. exists b'. split; [right; auto|auto]. }
        intros. cbn [value yvalue_at]. rewrite HV by auto. reflexivity.
      * destruct (pl_eval _ _ _ _ HD mus (yo_train o) E mu Hn) as (c' & E' & g & EV & HL & HE' & HI & Hv); auto. rewrite (Hfit eq_refl), EV. cbn [bind fst snd].
        exists ((c', Some E') :: l1), (g :: gs), (E' :: Fs). split; auto. split; [cbn; auto|]. split; [constructor; auto; split; auto; cbn; intros ? [= <-]; assumption|].
        split; [cbn; congruence|]. split.
        { intros (b & [<-|Hb] & Hc); [exists a; split; [left; auto|rewrite EC; cbn; auto]|]. destruct HA as (b' & Hb' & Hc'); [exists b; auto|]. exists b'. split; [right; auto|auto]. }
        intros. cbn [value yvalue_at]. rewrite HV, Hv by auto. reflexivity.
    + cbn [yshapes negb] in HE, Hent. destruct (IH l0 Es HM0 HT0 Hd0 HE Hent) as (l1 & gs & Fs & E1 & Hlen & HG & HS & HA & HV). rewrite E1.
      unfold ydescribed in HD. assert (H3 := mk_ent _ _ Hmade). destruct (ya_cls a) as [c|c] eqn:EC; destruct (ya_ent a) as [E|] eqn:EE; try tauto;
      destruct (H3 E eq_refl) as [He Htr]; rewrite He.
      * destruct HD as (g & HL & HEm & Hv). cbn [bind]. exists ((c, Some E) :: l1), (g :: gs), (E :: Fs). split; auto. split; [cbn; auto|]. split; [constructor; auto; split; auto; cbn; intros ? [= <-]; assumption|].
        split; [cbn; congruence|]. split.
        { intros (b & [<-|Hb] & Hc); [exists a; split; [left; auto|rewrite EC; auto]|]. destruct HA as (b' & Hb' & Hc'); [exists b; auto|]. exists b'. split; [right; auto|auto]. }
        intros. cbn [value yvalue_at]. rewrite HV by auto. rewrite Hv. reflexivity.
      * destruct Hd1 as (y & EV). destruct (HD mu y EV) as (g & HL & HEm & HI & Hv). rewrite (Hfit eq_refl), Htr, EV. cbn [bind].
        exists ((fst y, Some (snd y)) :: l1), (g :: gs), (snd y :: Fs). split; auto. split; [cbn; auto|]. split; [constructor; auto; split; auto; cbn; intros ? [= <-]; assumption|].
        split; [cbn; congruence|]. split.
        { intros (b & [<-|Hb] & Hc); [exists a; split; [left; auto|rewrite EC; cbn; auto]|]. destruct HA as (b' & Hb' & Hc'); [exists b; auto|]. exists b'. split; [right; auto|auto]. }
        intros. cbn [value yvalue_at]. rewrite HV, Hv by auto. reflexivity. Qed.

Lemma yrhs_ok r m args xs mus mu d Es q u ou : 0 < r -> args <> [] -> mus <> [] -> Forall2 (ydescribed r m) args xs -> Forall2 ymade args (ym_ops d) -> Forall (trained_on mus) (ym_ops d) ->
  Forall2 (y_defined mus mu) args xs -> yshapes r mus xs Es -> map yo_ent (filter (fun o => negb (yo_known o)) (ym_ops d)) = map Some Es ->
  is_vec r q -> is_vec m u -> (y_any_inputs args -> ou = Some (V u)) ->
  exists y, yrhs d mu (V q) ou = Ok (V y) /\ is_vec r y /\ forall i, i < r -> vget y i = yvalue_at mus mu xs Es q u i.
Proof. intros Hr Hne Hn HF HM HT Hdef HE Hent Hq Hu Hin.
  destruct (yeval_all r m mus mu Hn args xs (ym_ops d) Es HF HM HT Hdef HE Hent) as (l1 & gs & Fs & E1 & Hlen & HG & HS & HA & HV).
  assert (Hl1 : l1 <> []). { destruct l1; [|discriminate]. destruct HM; [congruence|discriminate]. }
  destruct (gmk_given r m l1 gs Fs Hl1 HG HS) as (e & Ee & Hops). unfold yrhs, yevaluate. rewrite E1. cbn [bind]. rewrite Ee. cbn [bind].
  unfold grhs. rewrite Hops. cbn [emap].
  destruct (gsum_ok r m l1 gs q u ou Hr HG Hq Hu) with (Es := Fs) (acc := map (fun _ => 0%R) q) as (y & Ey & Hy & Hv); auto.
  { eapply all_valued; eauto. } { unfold is_vec. rewrite map_length. auto. }
  exists y. split; auto. split; auto. intros i Hi. rewrite Hv, HV by auto. rewrite vget_map by (unfold is_vec in Hq; lia). ring. Qed.

(* ---- the theorems ------------------------------------------------------------------------------------------------------------------------ *)
Lemma refit_learns X r m args xs mus states lhs inputs ks Qs Zs Us d d' : lsx_ok X -> 0 < r -> Forall2 (ydescribed r m) args xs -> forallb ygivenb args = false ->
  ydata r m args mus states lhs inputs ks Qs Zs Us -> yfitted X r m args xs mus ks Qs Zs Us d -> yrefit X d = Ok d' ->
  yfitted X r m args xs mus ks Qs Zs Us d' /\ ylearns r m args xs mus ks Qs Zs Us d'.
Proof. intros HX Hr HF Hun HD HFd E.
  destruct (yrefit_inv X r m args xs mus states lhs inputs ks Qs Zs Us HX Hr HF Hun HD d d' HFd E) as (s & O & Es & Es' & EO & HO & HFd' & Hent). split; auto.
  assert (Fd := fdesc r m args xs mus states lhs inputs ks Qs Zs Us Hr HF HD). assert (Fg := fgiven r m args xs mus HF Hun). assert (FK := fK r m args mus states lhs inputs ks Qs Zs Us HD).
  set (ga := fargs r m mus xs) in *. set (gf := ffeats r mus xs) in *.
  set (d0 := {| gm_ops := map ginit ga; gm_hasin := existsb (fun a => oc_inputs (fst a)) ga; gm_r := Some r; gm_m := Some (if existsb (fun a => oc_inputs (fst a)) ga then S m else 0); gm_solver := Some s |}).
  assert (HG : gfitted X r (S m) (lsumn ks) ga gf (hstack Qs) (hstack Zs) (flatU ks Us) d0).
  { destruct (yf_solver _ _ _ _ _ _ _ _ _ _ _ HFd) as (s0 & E0 & HW & HC). assert (s0 = s) as -> by congruence. constructor; cbn; auto.
    - constructor; cbn; auto; [apply made_init|eauto].
    - exists s. auto. }
  destruct (fitted_learns X r (S m) (lsumn ks) ga gf (hstack Qs) (hstack Zs) (flatU ks Us) d0 s O HX Hr (Nat.lt_0_succ m) FK Fd Fg HG eq_refl EO HO) as (Fs & HV & HFs & _ & _ & _ & s1 & Es1 & Hmin).
  assert (Fs = place ga gf O 0) as ->.
  { cbn [gdone gm_ops] in HFs. rewrite (gfill_ents r ga gf) in HFs by (apply (place_valued r (S m) (unknowns ga gf)); auto). clear - HFs. revert HFs. generalize (place ga gf O 0). intros l. revert l.
    induction Fs as [|F Fs IH]; intros [|P l] H; cbn in H; try discriminate; auto. injection H as -> H. f_equal. auto. }
  destruct (valued_full r m mus xs _ HV) as (Es0 & EFull & HSh & HLr). fold ga in HLr. rewrite HLr in Hent.
  cbn [gdone gm_solver] in Es1. injection Es1 as <-. exists Es0. split; auto. destruct HFd' as [[J1 J2 J3] JT Jr Jm Js _]. destruct HD as [Hn Hl [EQ HQ] [EZ HZ] HU Hin Hlen].
  split. { clear - J1. induction J1 as [|a o args l [H _ _] HF IH]; cbn; auto. rewrite H, IH. reflexivity. }
  split. { intros i a E0 Ha HE0. destruct (Forall2_nth_error _ _ _ i a J1 Ha) as (o & Eo & [_ _ H3]). exists o. split; auto. apply (H3 E0 HE0). }
  split; auto. split.
  - intros mu q u ou Hdef Hq Hu Hou. apply (yrhs_ok r m args xs mus mu d' Es0 q u ou); auto. intros ->. discriminate.
  - exists s. split; auto. intros pen HP Es2 row HS2 Hrow. rewrite <- (unknowns_flat r m) in HP. fold ga gf in HP.
    destruct (full_valued r m mus xs Es2 HS2) as [HV2 HL2]. fold ga gf in HV2, HL2.
    specialize (Hmin pen HP (full r xs Es2) row HV2 Hrow). rewrite HL2, HLr in Hmin. rewrite EFull in Hmin.
    unfold gf in Hmin. rewrite !(misfit_flat r m mus ks xs) in Hmin by auto. exact Hmin. Qed.
Lemma yset_reg_fitted X r m args xs mus ks Qs Zs Us d g d' : valid_reg g -> yfitted X r m args xs mus ks Qs Zs Us d -> yset_regularizer g d = Ok d' ->
  yfitted X r m args xs mus ks Qs Zs Us d'.
Proof. intros HG [I1 I2 I3 I4 I5 (s & Es & HW & HC)] E. unfold yset_regularizer in E. rewrite Es in E.
  destruct (lsq_setreg s g) as [s' x] eqn:EG. destruct x as [[]|]; [|discriminate]. injection E as <-.
  assert (W' : winv X s'). { assert (Hx := lsq_setreg_winv X s g HW HG). rewrite EG in Hx. exact Hx. }
  constructor; cbn; auto.
  - destruct I1 as [J1 J2 J3]. constructor; cbn; auto. intros _. exists s'. auto.
  - exists s'. split; auto. split; auto. exact (lsq_setreg_clean X s g s' _ _ HW HG HC EG). Qed.

Lemma yextract_made s r mm O args : forall l idx l', Forall2 ymade args l -> yextract s r mm O idx l = Ok l' -> Forall2 ymade args l'.
Proof. intros l idx l' HF. revert idx l'. induction HF as [|a o args l Hm HF IH]; intros idx l' E; cbn [yextract] in E.
  - injection E as <-. constructor.
  - destruct (yo_known o) eqn:EK.
    + apply bind_ok in E. destruct E as (t & Et & E). injection E as <-. constructor; eauto.
    + apply bind_ok in E. destruct E as (w & _ & E). apply bind_ok in E. destruct E as (E0 & _ & E). apply bind_ok in E. destruct E as (t & Et & E). injection E as <-.
      constructor; eauto. apply ent_made; auto. Qed.
Lemma yrefit_made X args d d' : yinv X args d -> yrefit X d = Ok d' -> yinv X args d'.
Proof. intros [I1 I2 I3] E. unfold yrefit in E. destruct (yintrusive d); [injection E as <-; constructor; auto|]. destruct (ym_solver d) as [s|] eqn:Es; [|discriminate].
  apply bind_ok in E. destruct E as (O & _ & E). destruct (ym_s d), (ym_r d); try discriminate. apply bind_ok in E. destruct E as (l & EX & E). injection E as <-.
  constructor; cbn; auto; [eapply yextract_made; eauto|]. intros H. rewrite Es. destruct (I3 H) as (s0 & E0 & HW). eauto. Qed.
Lemma yreach_inv X r m args xs d : lsx_ok X -> 0 < r -> Forall2 (ydescribed r m) args xs -> yreach X r m args d -> yinv X args d.
Proof. intros HX Hr HF. induction 1 as [s d HS E|d mus states lhs inputs ks Qs Zs Us d' H IH HD E|d g d' H IH HG E|d d' H IH E].
  - eapply ymk_inv; eauto.
  - destruct (forallb ygivenb args) eqn:EK.
    + unfold yfit, yintrusive in E. rewrite (made_yknown args _ (yi_ops _ _ _ IH)), EK in E. injection E as <-. auto.
    + destruct (yfit_inv X r m args xs mus states lhs inputs ks Qs Zs Us HX Hr HF EK HD d d' IH E) as (d1 & H1 & E1 & _).
      eapply yrefit_made; [apply H1|eauto].
  - unfold yset_regularizer in E. destruct (ym_solver d) as [s|] eqn:Es; [|discriminate]. destruct (lsq_setreg s g) as [s' x] eqn:EG. destruct x as [[]|]; [|discriminate].
    injection E as <-. destruct IH as [I1 I2 I3]. constructor; cbn; auto. intros Hn. exists s'. split; auto. destruct (I3 Hn) as (s0 & E0 & HW). assert (s0 = s) as -> by congruence.
    assert (Hx := lsq_setreg_winv X s g HW HG). rewrite EG in Hx. exact Hx.
  - eapply yrefit_made; eauto. Qed.

Lemma ysession_learns X r m args xs mus states lhs inputs ks Qs Zs Us d' : lsx_ok X -> 0 < r -> Forall2 (ydescribed r m) args xs -> y_some_unknown args ->
  ydata r m args mus states lhs inputs ks Qs Zs Us -> ysession X r m args mus states lhs inputs d' ->
  ylearns r m args xs mus ks Qs Zs Us d'.
Proof. intros HX Hr HF Hun HD HS. apply y_unknown_given in Hun.
  enough (yfitted X r m args xs mus ks Qs Zs Us d' /\ ylearns r m args xs mus ks Qs Zs Us d') by tauto.
  induction HS as [d d' HR E|d g d1 d' HS [IH _] HG E1 E2].
  - assert (HI := yreach_inv X r m args xs d HX Hr HF HR). destruct (yfit_inv X r m args xs mus states lhs inputs ks Qs Zs Us HX Hr HF Hun HD d d' HI E) as (d1 & H1 & E1 & _).
    eapply refit_learns; eauto.
  - assert (H1 := yset_reg_fitted X r m args xs mus ks Qs Zs Us d g d1 HG IH E1). eapply refit_learns; eauto. Qed.

(* fit() leaves the regularizer alone *)
Lemma yfit_keeps_penalty X r m args xs d mus states lhs inputs ks Qs Zs Us d' : lsx_ok X -> 0 < r -> Forall2 (ydescribed r m) args xs -> y_some_unknown args ->
  yreach X r m args d -> ydata r m args mus states lhs inputs ks Qs Zs Us -> yfit X d mus states lhs inputs = Ok d' ->
  exists s s', ym_solver d = Some s /\ ym_solver d' = Some s' /\ forall w, penalty s' w = penalty s w.
Proof. intros HX Hr HF Hun HR HD E. apply y_unknown_given in Hun. assert (HI := yreach_inv X r m args xs d HX Hr HF HR).
  destruct (yfit_inv X r m args xs mus states lhs inputs ks Qs Zs Us HX Hr HF Hun HD d d' HI E) as (d1 & H1 & E1 & HP).
  destruct (yi_solver _ _ _ HI Hun) as (s & E0 & _). destruct (HP s E0) as (s1 & Es1 & Hpen).
  destruct (yrefit_inv X r m args xs mus states lhs inputs ks Qs Zs Us HX Hr HF Hun HD d1 d' H1 E1) as (s2 & O & A & B & _).
  exists s, s1. repeat (split; auto). congruence. Qed.

(* the value at a training parameter is the one of the regression *)
Lemma value_at_training r m mus i args xs Es q u row : Forall2 (ydescribed r m) args xs -> i < length mus -> Forall2 (y_defined mus (param mus i)) args xs -> is_vec r q -> is_vec m u ->
  yvalue_at mus (param mus i) xs Es q u row = yvalue mus i xs Es q u row.
Proof. intros HF Hi. revert Es. induction HF as [|a x args xs HD HF IH]; intros Es Hdef Hq Hu; auto. inversion Hdef as [|? ? ? ? H1 H2]; subst.
  destruct x as [f|v]; cbn [yvalue_at yvalue]; [|rewrite IH by auto; reflexivity]. destruct Es as [|E Es]; auto. rewrite IH by auto. f_equal.
  unfold yterm. apply bsum_ext. intros b Hb. f_equal. unfold ydescribed in HD. destruct H1 as [_ H1]. destruct (ya_cls a), (ya_ent a); try tauto.
  - destruct HD as (g & _ & ->). reflexivity.
  - apply (pl_psi _ _ _ _ HD); auto. Qed.

(* a known interpolated operator: fit() never succeeds *)
Lemma known_itp_fails X r m args xs d mus states lhs inputs : lsx_ok X -> 0 < r -> Forall2 (ydescribed r m) args xs -> y_some_unknown args -> yreach X r m args d ->
  (exists a E, In a args /\ ya_ent a = Some E /\ y_itp (ya_cls a) = true) -> forall d', yfit X d mus states lhs inputs <> Ok d'.
Proof. intros HX Hr HF Hun HR (a & E0 & Ha & HE & HT) d' E. apply y_unknown_given in Hun. assert (HI := yreach_inv X r m args xs d HX Hr HF HR).
  unfold yfit, yintrusive in E. rewrite (made_yknown args _ (yi_ops _ _ _ HI)), Hun in E.
  apply bind_ok in E. destruct E as ([[[d1 Qs0] Zs'] oUs] & EP & E). apply bind_ok in E. destruct E as (p & _ & E). apply bind_ok in E. destruct E as (l & ET & _).
  assert (HM : Forall2 ymade args (ym_ops d1)).
  { unfold yprocess in EP. apply bind_ok in EP. destruct EP as (dc & Ec & EP). unfold yclear in Ec. apply bind_ok in Ec. destruct Ec as (r0 & _ & Ec). apply bind_ok in Ec. destruct Ec as (m0 & _ & Ec). injection Ec as <-.
    apply bind_ok in EP. destruct EP as (p' & _ & EP). apply bind_ok in EP. destruct EP as (d2 & E2 & EP).
    assert (HM0 : Forall2 ymade args (map yclear_op (ym_ops d))) by (apply map_made; [intros; apply clear_made1; auto|apply HI]).
    destruct (ysync_ok _ _ _ args E2 HM0) as (A1 & _). apply bind_ok in EP. destruct EP as (d3 & E3 & EP).
    assert (B : ym_ops d3 = ym_ops d2).
    { destruct (ym_r d2); [injection E3 as <-; auto|]. destruct (map atleast_2d states); [discriminate|]. unfold yset_r in E3. destruct (forallb _ _) in E3; [|discriminate]. injection E3 as <-. auto. }
    do 5 (destruct (negb _); [discriminate|]). apply bind_ok in EP. destruct EP as ([d4 oU4] & E4 & EP). cbn [fst snd] in EP. apply bind_ok in EP. destruct EP as (Z1 & _ & EP). injection EP as <- _ _ _.
    assert (C : ym_ops d4 = ym_ops d3); [|rewrite C, B; auto]. destruct (ym_hasin d3); [|injection E4 as <- _; auto]. destruct inputs as [us|]; [|discriminate].
    apply bind_ok in E4. destruct E4 as (d5 & E5' & E4). do 3 (destruct (negb _); [discriminate|]). injection E4 as <- _.
    destruct (ym_m d3) as [[|n]|]; [|injection E5' as <-; auto|];
      (destruct (map atleast_2d us); [discriminate|]; unfold yset_m in E5'; destruct (_ && _) in E5'; [discriminate|]; destruct (forallb _ _) in E5'; [|discriminate]; injection E5' as <-; auto). }
  apply mapM_Forall2 in ET. apply In_nth_error in Ha. destruct Ha as (i & Hi). destruct (Forall2_nth_error _ _ _ i a HM Hi) as (o & Eo & [H1 _ H3]).
  destruct (Forall2_nth_error _ _ _ i o ET Eo) as (o' & _ & E1). unfold ytrain in E1. rewrite H1, HT in E1. destruct (H3 E0 HE) as [H4 _]. rewrite H4 in E1. discriminate. Qed.

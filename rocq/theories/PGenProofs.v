(* PGenProofs.v -- parametric models made of operators of any class: the regression problem and what is written into the
   operators. *)
From Coq Require Import ZArith String.
From Verif Require Import LinAlg MatAlg BlockAlg TupleFinal OpsProofs AffProofs PolyOpProofs MonoPredict ParaVals.
From Verif Require Export PGenFlat.
#[local] Open Scope nat_scope.
#[local] Open Scope list_scope.

Lemma bind_ok {A B} (x : res A) (f : A -> res B) b : bind x f = Ok b -> exists a, x = Ok a /\ f a = Ok b.
Proof. destruct x; cbn; [eauto|discriminate]. Qed.

(* ---- the operators ------------------------------------------------------------------------------------------------------------ *)
Definition ygivenb (a : yarg) : bool := match ya_ent a with Some _ => true | None => false end.
Record ymade (a : yarg) (o : yop) : Prop := {
  mk_cls : yo_cls o = ya_cls a;
  mk_known : yo_known o = ygivenb a;
  mk_ent : forall E, ya_ent a = Some E -> yo_ent o = Some E /\ yo_train o = ya_train a }.
Lemma yinit_made args : Forall2 ymade args (map yinit args).
Proof. induction args as [|a args IH]; cbn; constructor; auto. constructor; cbn; auto. Qed.
Lemma map_made (f : yop -> yop) args l : (forall a o, ymade a o -> ymade a (f o)) -> Forall2 ymade args l -> Forall2 ymade args (map f l).
Proof. intros H. induction 1; cbn; constructor; auto. Qed.
Lemma set_p_made p a o : ymade a o -> ymade a (set_p p o).
Proof. intros [H1 H2 H3]. unfold set_p. destruct (y_par (yo_cls o)); [|constructor; auto]. destruct (yo_p o); constructor; auto. Qed.
Lemma clear_made1 a o : ymade a o -> ymade a (yclear_op o).
Proof. intros [H1 H2 H3]. unfold yclear_op. destruct (yo_known o) eqn:EK; [constructor; auto; congruence|]. constructor; auto. cbn.
  intros E HE. unfold ygivenb in H2. rewrite HE in H2. discriminate. Qed.
Lemma train_made mus p a o o' : ymade a o -> ytrain mus p o = Ok o' -> ymade a o' /\ (y_itp (yo_cls o') = true -> yo_known o' = false -> yo_train o' = Some mus).
Proof. intros [H1 H2 H3] E. unfold ytrain in E. destruct (y_itp (yo_cls o)) eqn:EI.
  - destruct (yo_ent o) eqn:EE; [discriminate|]. destruct mus; [discriminate|]. injection E as <-. split; [|auto].
    constructor; auto. cbn. intros E0 HE. destruct (H3 E0 HE) as [H4 _]. congruence.
  - injection E as <-. split; [constructor; auto|]. congruence. Qed.
Lemma ent_made E a o : ymade a o -> yo_known o = false -> ymade a (with_ent E o).
Proof. intros [H1 H2 H3] HK. constructor; auto. cbn. intros E0 HE. unfold ygivenb in H2. rewrite HE in H2. congruence. Qed.
Lemma made_yinputs args l : Forall2 ymade args l -> existsb (fun o => y_inputs (yo_cls o)) l = existsb (fun a => y_inputs (ya_cls a)) args.
Proof. induction 1 as [|a o args l [E _ _] H IH]; cbn; auto. rewrite E, IH. reflexivity. Qed.
Lemma made_yknown args l : Forall2 ymade args l -> forallb yo_known l = forallb ygivenb args.
Proof. induction 1 as [|a o args l [_ E _] H IH]; cbn; auto. rewrite E, IH. reflexivity. Qed.
Lemma y_any_ex args : y_any_inputs args <-> existsb (fun a => y_inputs (ya_cls a)) args = true.
Proof. rewrite existsb_exists. reflexivity. Qed.
Lemma described_kind r m a x : ydescribed r m a x -> ygivenb a = match x with Given _ => true | Learn _ => false end.
Proof. unfold ydescribed, ygivenb. destruct (ya_cls a), (ya_ent a), x; tauto. Qed.
Lemma described_given r m args xs : Forall2 (ydescribed r m) args xs -> forallb ygivenb args = forallb (fun x => match x with Given _ => true | Learn _ => false end) xs.
Proof. induction 1 as [|a x args xs H HF IH]; cbn; auto. rewrite (described_kind r m a x H), IH. reflexivity. Qed.
Lemma described_wide r m mus args xs : mus <> [] -> Forall2 (ydescribed r m) args xs -> Forall (wide mus) xs.
Proof. intros Hn. induction 1 as [|a x args xs H HF IH]; constructor; auto. unfold ydescribed in H. destruct x; cbn; auto.
  destruct (ya_cls a), (ya_ent a); try tauto.
  - destruct H as (g & HL & ->). cbn. apply (lw_pos _ _ _ _ HL).
  - apply (pl_pos _ _ _ _ H); auto. Qed.

(* ---- subtracting the known operators -------------------------------------------------------------------------------------------- *)
Lemma yapply_known r m a o v mu k Q U oU y : 0 < k -> ydescribed r m a (Given v) -> ymade a o -> is_mat r k Q -> is_mat m k U ->
  (y_inputs (ya_cls a) = true -> oU = Some (M U)) -> yapply o mu (M Q) oU = Ok y ->
  exists Y, y = M Y /\ is_mat r k Y /\ forall i j, i < r -> j < k -> mget Y i j = v mu (colv r Q j) (colv m U j) i.
Proof. intros Hk HD [H1 H2 H3] HQ HU HI E. unfold ydescribed in HD. destruct (ya_cls a) as [c|c] eqn:EC; destruct (ya_ent a) as [E0|] eqn:EE; try tauto.
  - destruct HD as (g & HL & HE & Hv). destruct (H3 E0 eq_refl) as [H4 _]. unfold yapply, yeval in E. rewrite H1, H4 in E. cbn [bind snd fst] in E.
    destruct (lw_mat _ _ _ _ HL k E0 Q U oU Hk HE HQ HU HI) as (Y & EY & HY & HV). rewrite EY in E. injection E as <-. exists Y. split; auto. split; auto.
    intros. rewrite HV by auto. symmetry. apply Hv.
  - destruct (H3 E0 eq_refl) as [H4 H5]. unfold yapply, yeval in E. rewrite H1, H4, H5 in E. destruct (y_fits o mu); [|discriminate]. destruct (pc_eval c (ya_train a) E0 mu) as [x|] eqn:EV; [|discriminate].
    cbn [bind snd fst] in E. destruct (HD mu x EV) as (g & HL & HE & HI2 & Hv).
    destruct (lw_mat _ _ _ _ HL k (snd x) Q U oU Hk HE HQ HU) as (Y & EY & HY & HV); auto. rewrite EY in E. injection E as <-. exists Y. split; auto. split; auto.
    intros. rewrite HV by auto. apply Hv; auto; apply is_vec_colv. Qed.

Lemma ysub_op_ok r m a o v : 0 < r -> ydescribed r m a (Given v) -> ymade a o -> forall ks mus Qs Us oUs Zs Zs',
  length ks = length mus -> trajectories r ks Qs -> trajectories m ks Us -> trajectories r ks Zs -> length oUs = length ks ->
  (y_inputs (ya_cls a) = true -> oUs = map (fun U => Some (M U)) Us) ->
  ysub_op o mus Qs oUs Zs = Ok Zs' -> trajectories r ks Zs' /\
  forall i j row, i < length ks -> j < nth i ks 0 -> row < r ->
    mget (traj Zs' i) row j = (mget (traj Zs i) row j - v (param mus i) (colv r (traj Qs i) j) (colv m (traj Us i) j) row)%R.
Proof. intros Hr HD HM. induction ks as [|k ks IH]; intros mus Qs Us oUs Zs Zs' Hl HQ HU HZ HoU HI E.
  - inversion HZ; subst. destruct mus; [|discriminate]. cbn in E. injection E as <-. split; [constructor|]. cbn. intros; lia.
  - inversion HQ as [|? Q ? Qs0 [Hk HQ1] HQ2]; subst. inversion HU as [|? U ? Us0 [_ HU1] HU2]; subst. inversion HZ as [|? Z ? Zs0 [_ HZ1] HZ2]; subst.
    destruct mus as [|mu mus]; [discriminate|]. destruct oUs as [|oU oUs]; [discriminate|]. cbn [ysub_op] in E.
    apply bind_ok in E. destruct E as (y & E1 & E).
    assert (HI1 : y_inputs (ya_cls a) = true -> oU = Some (M U)) by (intros Hx; specialize (HI Hx); cbn in HI; congruence).
    assert (HI2 : y_inputs (ya_cls a) = true -> oUs = map (fun U => Some (M U)) Us0) by (intros Hx; specialize (HI Hx); cbn in HI; congruence).
    destruct (yapply_known r m a o v mu k Q U oU y Hk HD HM HQ1 HU1 HI1 E1) as (Y & -> & HY & Hv).
    destruct (shape_is _ _ _); [|discriminate]. apply bind_ok in E. destruct E as (t & E2 & E). injection E as <-.
    cbn [length] in Hl, HoU. destruct (IH mus Qs0 Us0 oUs Zs0 t) as [A B]; auto; try lia.
    split. { constructor; auto. split; auto. apply is_mat_msub; auto. }
    intros [|i] j row Hi Hj Hrow; cbn [length nth traj param] in *.
    + rewrite (mget_msub r k) by auto. rewrite Hv by auto. reflexivity.
    + apply B; auto. lia. Qed.

Lemma ysubtract_ok r m ks mus Qs Us oUs : 0 < r -> length ks = length mus -> trajectories r ks Qs -> trajectories m ks Us -> length oUs = length ks ->
  forall args xs l, Forall2 (ydescribed r m) args xs -> Forall2 ymade args l -> (y_any_inputs args -> oUs = map (fun U => Some (M U)) Us) ->
  forall Zs Zs', trajectories r ks Zs -> ysubtract l mus Qs oUs Zs = Ok Zs' -> trajectories r ks Zs' /\
  forall i j row, i < length ks -> j < nth i ks 0 -> row < r ->
    mget (traj Zs' i) row j = (mget (traj Zs i) row j - ygiven mus i xs (colv r (traj Qs i) j) (colv m (traj Us i) j) row)%R.
Proof. intros Hr Hl HQ HU HoU args xs l HF. revert l. induction HF as [|a x args xs HD HF IH]; intros l HM HI Zs Zs' HZ E; inversion HM as [|? o ? l0 Hmade HM0]; subst.
  - cbn in E. injection E as <-. split; auto. intros. cbn. ring.
  - assert (HI0 : y_any_inputs args -> oUs = map (fun U => Some (M U)) Us) by (intros (b & Hb & Hc); apply HI; exists b; split; [right; auto|auto]).
    cbn [ysubtract] in E. rewrite (mk_known _ _ Hmade), (described_kind r m a x HD) in E. destruct x as [f|v].
    + apply (IH l0 HM0 HI0 Zs Zs' HZ E).
    + apply bind_ok in E. destruct E as (Z1 & E1 & E2).
      destruct (ysub_op_ok r m a o v Hr HD Hmade ks mus Qs Us oUs Zs Z1) as [A B]; auto. { intros Hx. apply HI. exists a. split; [left; auto|auto]. }
      destruct (IH l0 HM0 HI0 Z1 Zs' A E2) as [C D]. split; auto. intros i j row Hi Hj Hrow. rewrite D, B by auto. cbn [ygiven]. ring. Qed.

(* ---- the data matrix ------------------------------------------------------------------------------------------------------------- *)
Lemma non_blocks_ok r m c g : lawful r m c g -> forall ks Qs Us oUs, trajectories r ks Qs -> trajectories m ks Us -> length oUs = length ks ->
  (oc_inputs c = true -> oUs = map (fun U => Some (M U)) Us) ->
  exists Ds, non_blocks c Qs oUs = Ok Ds /\ trajectories (fst g) ks Ds /\
    forall i j b, i < length ks -> j < nth i ks 0 -> b < fst g -> mget (traj Ds i) b j = vget (snd g (colv r (traj Qs i) j) (colv m (traj Us i) j)) b.
Proof. intros HL. induction ks as [|k ks IH]; intros Qs Us oUs HQ HU HoU HI.
  - inversion HQ; subst. exists []. cbn. split; auto. split; [constructor|]. intros; lia.
  - inversion HQ as [|? Q ? Qs0 [Hk HQ1] HQ2]; subst. inversion HU as [|? U ? Us0 [_ HU1] HU2]; subst. destruct oUs as [|oU oUs]; [discriminate|].
    assert (HI1 : oc_inputs c = true -> oU = Some (M U)) by (intros Hx; specialize (HI Hx); cbn in HI; congruence).
    assert (HI2 : oc_inputs c = true -> oUs = map (fun U => Some (M U)) Us0) by (intros Hx; specialize (HI Hx); cbn in HI; congruence).
    cbn [length] in HoU. destruct (IH Qs0 Us0 oUs) as (Ds & ED & HD & Hv); auto.
    destruct (lw_block _ _ _ _ HL k Q U oU Hk HQ1 HU1 HI1) as (B & EB & HB & Hb).
    exists (B :: Ds). cbn [non_blocks]. rewrite EB, ED. cbn [bind]. split; auto. split; [constructor; auto|].
    intros [|i] j b Hi Hj Hbb; cbn [length nth traj] in *; [apply Hb; auto|]. apply Hv; auto. lia. Qed.

Lemma y_block_ok r m ks mus Qs Us oUs a f : mus <> [] -> length ks = length mus -> trajectories r ks Qs -> trajectories m ks Us -> length oUs = length ks ->
  ydescribed r m a (Learn f) -> (y_inputs (ya_cls a) = true -> oUs = map (fun U => Some (M U)) Us) ->
  forall B, y_block (ya_cls a) mus Qs oUs = Ok B -> is_mat (yf_w f mus) (lsumn ks) B /\
    forall i j b, i < length ks -> j < nth i ks 0 -> b < yf_w f mus -> mget B b (start ks i + j) = vget (yf_phi f mus i (colv r (traj Qs i) j) (colv m (traj Us i) j)) b.
Proof. intros Hn Hl HQ HU HoU HD HI B0 EB0. unfold ydescribed in HD. destruct (ya_cls a) as [c|c] eqn:EC; destruct (ya_ent a); try tauto.
  - destruct HD as (g & HL & ->). cbn [y_block] in EB0. destruct (non_blocks_ok r m c g HL ks Qs Us oUs) as (Ds & ED & HDs & Hv); auto. rewrite ED in EB0. cbn [bind] in EB0.
    assert (Hne : ks <> []) by (destruct ks; [destruct mus; [congruence|discriminate]|discriminate]).
    rewrite (hstack_r_ok (fst g) ks) in EB0 by (auto using traj_blocks; eapply traj_ne; eauto). injection EB0 as <-. cbn [yf_w yf_phi non_feature].
    split; [apply flat_shape; auto|]. intros. rewrite (mget_traj (fst g) ks) by (auto; apply (lw_pos _ _ _ _ HL)). apply Hv; auto.
  - cbn [y_block] in EB0. destruct (pl_block _ _ _ _ HD mus ks Qs Us oUs) with (B := B0) as (HB & Hv); auto; [congruence|]. split; auto.
    intros. apply Hv; auto. congruence. Qed.

Section Problem.
  Variables (r m : nat) (mus : list pval) (ks : list nat) (Qs Zs Us : list mat).
  Hypotheses (Hr : 0 < r) (Hn : mus <> []) (Hl : length ks = length mus) (HQ : trajectories r ks Qs) (HZ : trajectories r ks Zs) (HU : trajectories m ks Us).
  Lemma ks_ne : ks <> []. Proof. destruct ks; [destruct mus; [congruence|discriminate]|discriminate]. Qed.
  Definition yD (xs : list ydesc) : mat := gD r (S m) (lsumn ks) (hstack Qs) (flatU ks Us) (fargs r m mus xs) (ffeats r mus xs).
  Definition yL (xs : list ydesc) : mat := gL r (S m) (lsumn ks) (hstack Qs) (hstack Zs) (flatU ks Us) (fargs r m mus xs) (ffeats r mus xs).

  Lemma blk_ok f B : 0 < yf_w f mus -> is_mat (yf_w f mus) (lsumn ks) B ->
    (forall i j b, i < length ks -> j < nth i ks 0 -> b < yf_w f mus -> mget B b (start ks i + j) = vget (yf_phi f mus i (colv r (traj Qs i) j) (colv m (traj Us i) j)) b) ->
    mT B = blk r (S m) (lsumn ks) (hstack Qs) (flatU ks Us) (flat_feat r mus (Learn f)).
  Proof. intros Hw HB Hv. apply (mat_ext (lsumn ks) (yf_w f mus)); [apply is_mat_mT; auto|apply is_mat_tab2|].
    intros c b Hc Hb. rewrite (mget_mT (yf_w f mus) (lsumn ks)) by auto. unfold blk. rewrite mget_tab2 by auto.
    destruct (locate ks c Hc) as (i & j & Hi & Hj & ->). rewrite Hv by auto. rewrite (colv_traj r ks), (flatU_col m ks) by auto. cbn [flat_feat snd]. rewrite tag_cons. reflexivity. Qed.
  Lemma yblocks_ok oUs args xs : Forall2 (ydescribed r m) args xs -> length oUs = length ks -> forall l, Forall2 ymade args l ->
    (y_any_inputs args -> oUs = map (fun U => Some (M U)) Us) ->
    forall Bs, mapM (fun o => do B <- y_block (yo_cls o) mus Qs oUs; Ok (mT B)) (y_infer l) = Ok Bs ->
      Bs = (map (blk r (S m) (lsumn ks) (hstack Qs) (flatU ks Us)) (tolearn (fargs r m mus xs) (ffeats r mus xs))).
  Proof. intros HF HoU. induction HF as [|a x args xs HD HF IH]; intros l HM HI Bs EBs; inversion HM as [|? o ? l0 Hmade HM0]; subst; [cbn in EBs; injection EBs as <-; auto|].
    assert (HI0 : y_any_inputs args -> oUs = map (fun U => Some (M U)) Us) by (intros (b & Hb & Hc); apply HI; exists b; split; [right; auto|auto]).
    specialize (IH l0 HM0 HI0). unfold y_infer in *. cbn [filter] in EBs. rewrite (mk_known _ _ Hmade), (described_kind r m a x HD) in EBs. destruct x as [f|v]; cbn [negb] in EBs.
    - cbn [mapM] in EBs. rewrite (mk_cls _ _ Hmade) in EBs. apply bind_ok in EBs. destruct EBs as (B1 & EB & EBs). apply bind_ok in EB. destruct EB as (B & EB & EB1). injection EB1 as <-.
      apply bind_ok in EBs. destruct EBs as (Bt & EBt & EBs). injection EBs as <-. rewrite (IH Bt EBt).
      destruct (y_block_ok r m ks mus Qs Us oUs a f Hn Hl HQ HU HoU HD) with (B := B) as (HB & Hv); auto. { intros Hx. apply HI. exists a. split; [left; auto|auto]. }
      assert (Hw := described_wide r m mus [a] [Learn f] Hn ltac:(constructor; auto)). inversion Hw as [|? ? Hw1 _]; subst.
      rewrite (blk_ok f B Hw1 HB Hv). reflexivity.
    - exact (IH Bs EBs). Qed.
  Lemma yassemble_ok oUs args xs l D : Forall2 (ydescribed r m) args xs -> length oUs = length ks -> Forall2 ymade args l ->
    (y_any_inputs args -> oUs = map (fun U => Some (M U)) Us) -> yassemble l mus Qs oUs = Ok D -> D = yD xs.
  Proof. intros HF HoU HM HI E. unfold yassemble in E. apply bind_ok in E. destruct E as (Bs & EBs & E). rewrite (yblocks_ok oUs args xs HF HoU l HM HI Bs EBs) in E. unfold hstack_r in E.
    destruct (map (blk r (S m) (lsumn ks) (hstack Qs) (flatU ks Us)) (tolearn (fargs r m mus xs) (ffeats r mus xs))) as [|A t] eqn:EM; [discriminate|]. destruct (forallb _ _); [|discriminate]. injection E as <-. unfold yD, gD. rewrite EM. reflexivity. Qed.
  Lemma yL_ok xs Zs' L : trajectories r ks Zs' -> (forall i j row, i < length ks -> j < nth i ks 0 -> row < r ->
      mget (traj Zs' i) row j = (mget (traj Zs i) row j - ygiven mus i xs (colv r (traj Qs i) j) (colv m (traj Us i) j) row)%R) ->
    hstack_r Zs' = Ok L -> L = yL xs.
  Proof. intros HZ' Hv E. rewrite (hstack_r_ok r ks) in E by (auto using traj_blocks; eapply traj_ne; eauto using ks_ne). injection E as <-.
    apply (mat_ext r (lsumn ks)); [apply flat_shape; auto using ks_ne|apply is_mat_tab2|]. intros row c Hrow Hc. destruct (locate ks c Hc) as (i & j & Hi & Hj & ->).
    unfold yL, gL. rewrite mget_tab2 by auto using start_lt. rewrite !(mget_traj r ks) by auto. rewrite (colv_traj r ks), (flatU_col m ks) by auto.
    rewrite knownval_flat by auto. apply Hv; auto. Qed.
End Problem.

(* ---- what is written into the operators --------------------------------------------------------------------------------------------- *)
Definition trained_on (mus : list pval) (o : yop) : Prop := (y_itp (yo_cls o) = true -> yo_known o = false -> yo_train o = Some mus) /\
  (y_par (yo_cls o) = true -> exists p, params_dim mus = Ok p /\ yo_p o = Some p).
Lemma yextract_ok r m mus O W mm args xs : mus <> [] -> is_mat r W O -> Forall2 (ydescribed r m) args xs -> (y_any_inputs args -> mm = Some m) ->
  forall l idx l', Forall2 ymade args l -> Forall (trained_on mus) l -> idx + yunknowns mus xs <= W -> yextract (length mus) r mm O idx l = Ok l' ->
  Forall2 ymade args l' /\ Forall (trained_on mus) l' /\
  map yo_ent (filter (fun o => negb (yo_known o)) l') = map Some (learned (fargs r m mus xs) (place (fargs r m mus xs) (ffeats r mus xs) O idx)).
Proof. intros Hn HO HF. induction HF as [|a x args xs HD HF IH]; intros HI l idx l' HM HT HW E; inversion HM as [|? o ? l0 Hmade HM0]; subst.
  - cbn in E. injection E as <-. auto.
  - assert (HI0 : y_any_inputs args -> mm = Some m) by (intros (b & Hb & Hc); apply HI; exists b; split; [right; auto|auto]).
    inversion HT as [|? ? HT1 HT0]; subst. cbn [yextract] in E. assert (EK := mk_known _ _ Hmade). rewrite (described_kind r m a x HD) in EK. rewrite EK in E. destruct x as [f|v].
    + apply bind_ok in E. destruct E as (w & Ew & E). apply bind_ok in E. destruct E as (E0 & Eset & E). apply bind_ok in E. destruct E as (t & Et & E). injection E as <-.
      cbn [yunknowns] in HW. assert (HC := is_mat_mcols r W idx (idx + yf_w f mus) O HO ltac:(lia) ltac:(lia)). replace (idx + yf_w f mus - idx) with (yf_w f mus) in HC by lia.
      assert (HI1 : y_inputs (ya_cls a) = true -> mm = Some m) by (intros Hx; apply HI; exists a; split; [left; auto|auto]).
      assert (w = yf_w f mus /\ E0 = mcols idx (idx + yf_w f mus) O) as [-> ->].
      { unfold ydescribed in HD. unfold y_set in Eset. destruct HT1 as [HT1 _]. rewrite (mk_cls _ _ Hmade) in Ew, Eset, HT1. destruct (ya_cls a) as [c|c], (ya_ent a); try tauto; cbn [y_dim y_itp y_inputs] in *.
        - destruct HD as (g & HL & ->). cbn [yf_w non_feature] in *. rewrite (lw_dim _ _ _ _ HL) in Ew by auto. injection Ew as <-. rewrite (lw_set _ _ _ _ HL) in Eset by auto. injection Eset as <-. auto.
        - rewrite (pl_dim _ _ _ _ HD mus mm) in Ew by auto. injection Ew as <-. split; auto. apply (pl_set _ _ _ _ HD mus (yo_train o)); auto. }
      destruct (IH HI0 l0 (idx + yf_w f mus) t) as (A & B & C); auto; [lia|]. split; [|split].
      * constructor; auto. apply ent_made; auto.
      * constructor; auto.
      * cbn [filter with_ent yo_known]. rewrite EK. cbn [negb map yo_ent]. cbn [fargs ffeats map flat_arg flat_feat place learned fst]. f_equal. exact C.
    + apply bind_ok in E. destruct E as (t & Et & E). injection E as <-. destruct (IH HI0 l0 idx t) as (A & B & C); auto. split; [|split]; auto.
      cbn [filter]. rewrite EK. cbn [negb]. cbn [fargs ffeats map flat_arg flat_feat place learned fst]. exact C. Qed.

(* PGenFresh.v -- a fit depends on the operators given to the constructor, the solver and the data, not on what was learned
   before; what the constructor and fit() reject. *)
From Coq Require Import ZArith String.
From Verif Require Import LinAlg MatAlg AffProofs PGenProofs.
From Verif Require Export PGenMain.
#[local] Open Scope nat_scope.
#[local] Open Scope list_scope.

(* operators that fit() cannot tell apart once the model is cleared *)
Record osim (o o' : yop) : Prop := {
  os_cls : yo_cls o = yo_cls o';
  os_ent : yo_ent o = yo_ent o';
  os_p : yo_p o = yo_p o';
  os_known : yo_known o = yo_known o';
  os_train : yo_train o = yo_train o' \/ (y_itp (yo_cls o) = true /\ yo_ent o = None) }.
Lemma osim_refl o : osim o o. Proof. constructor; auto. Qed.
Lemma osim_trans a b c : osim a b -> osim b c -> osim a c.
Proof. intros [A1 A2 A3 A4 A5] [B1 B2 B3 B4 B5]. constructor; try congruence. destruct A5 as [A5|A5]; [|auto]. destruct B5 as [B5|[B5 B6]]; [left; congruence|right; split; congruence]. Qed.
Lemma osim_sym a b : osim a b -> osim b a.
Proof. intros [A1 A2 A3 A4 A5]. constructor; auto. destruct A5 as [A5|[A5 A6]]; [auto|right; split; congruence]. Qed.
(* a known operator has entries and a parameter dimension of its own *)
Definition settled (o : yop) : Prop := yo_known o = true -> yo_ent o <> None /\ (y_par (yo_cls o) = true -> yo_p o <> None).
Definition same (o0 o : yop) : Prop := osim (yclear_op o0) (yclear_op o) /\ settled o.
Lemma same_known o0 o : same o0 o -> yo_known o0 = yo_known o.
Proof. intros [[_ _ _ H _] _]. unfold yclear_op in H. destruct (yo_known o0) eqn:E0, (yo_known o) eqn:E1; cbn in H; congruence. Qed.

Lemma same_clear o0 o : same o0 o -> same o0 (yclear_op o).
Proof. intros [H S]. split.
  - replace (yclear_op (yclear_op o)) with (yclear_op o); auto. unfold yclear_op. destruct (yo_known o) eqn:E; [rewrite E; auto|cbn; auto].
  - unfold settled, yclear_op in *. destruct (yo_known o) eqn:E; auto. cbn. discriminate. Qed.
Lemma same_set_p p o0 o : same o0 o -> same o0 (set_p p o).
Proof. intros [H S]. unfold set_p. destruct (y_par (yo_cls o)) eqn:EP; [|split; auto]. destruct (yo_p o) eqn:E; [split; auto|].
  destruct (yo_known o) eqn:EK; [exfalso; destruct (S EK) as [_ S2]; apply S2; auto|]. split; [|intros HK; cbn in HK; congruence].
  unfold yclear_op in *. cbn. rewrite EK in *. exact H. Qed.
Lemma same_train mus p o0 o o' : same o0 o -> ytrain mus p o = Ok o' -> same o0 o'.
Proof. intros [H S] E. unfold ytrain in E. destruct (y_itp (yo_cls o)) eqn:EI; [|injection E as <-; split; auto]. destruct (yo_ent o) eqn:EE; [discriminate|]. destruct mus; [discriminate|]. injection E as <-.
  assert (EK : yo_known o = false) by (destruct (yo_known o) eqn:EK; auto; destruct (S EK); congruence).
  split; [|intros HK; cbn in HK; congruence]. eapply osim_trans; [exact H|]. unfold yclear_op. cbn. rewrite EK. constructor; cbn; auto. Qed.
Lemma same_ent E o0 o : same o0 o -> yo_known o = false -> same o0 (with_ent E o).
Proof. intros [H S] EK. split; [|intros HK; cbn in HK; congruence]. unfold yclear_op in *. cbn. rewrite EK in *. exact H. Qed.

(* what clearing, sizing, training and entries given to unknown operators preserve, fit() and refit() preserve *)
Section Keep.
Variables (T : Type) (P : T -> yop -> Prop).
Hypothesis K_clear : forall o0 o, P o0 o -> P o0 (yclear_op o).
Hypothesis K_set_p : forall p o0 o, P o0 o -> P o0 (set_p p o).
Hypothesis K_train : forall mus p o0 o o', P o0 o -> ytrain mus p o = Ok o' -> P o0 o'.
Hypothesis K_ent : forall E o0 o, P o0 o -> yo_known o = false -> P o0 (with_ent E o).
Lemma keep_map f l0 l : (forall o0 o, P o0 o -> P o0 (f o)) -> Forall2 P l0 l -> Forall2 P l0 (map f l).
Proof. intros Hf. induction 1; cbn; constructor; auto. Qed.
Lemma keep_mapM f l0 l l' : (forall o0 o o', P o0 o -> f o = Ok o' -> P o0 o') -> Forall2 P l0 l -> mapM f l = Ok l' -> Forall2 P l0 l'.
Proof. intros Hf HF. revert l'. induction HF as [|o0 o l0 l Ho HF IH]; intros l' E; cbn [mapM] in E; [injection E as <-; constructor|].
  apply bind_ok in E. destruct E as (o' & E1 & E). apply bind_ok in E. destruct E as (t & E2 & E). injection E as <-. constructor; eauto. Qed.
Lemma keep_extract s r m O l0 : forall l idx l', Forall2 P l0 l -> yextract s r m O idx l = Ok l' -> Forall2 P l0 l'.
Proof. intros l idx l' HF. revert idx l'. induction HF as [|o0 o l0 l Ho HF IH]; intros idx l' E; cbn [yextract] in E; [injection E as <-; constructor|].
  destruct (yo_known o) eqn:EK.
  - apply bind_ok in E. destruct E as (t & Et & E). injection E as <-. constructor; eauto.
  - apply bind_ok in E. destruct E as (w & _ & E). apply bind_ok in E. destruct E as (B & _ & E). apply bind_ok in E. destruct E as (t & Et & E). injection E as <-. constructor; eauto. Qed.
Lemma keep_sync n d d' l0 : ysync n d = Ok d' -> Forall2 P l0 (ym_ops d) -> Forall2 P l0 (ym_ops d') /\ ym_hasin d' = ym_hasin d.
Proof. intros E HM. unfold ysync in E. apply bind_ok in E. destruct E as (p0 & _ & E). destruct (match n with Some _ => _ | None => _ end) in E; [discriminate|].
  destruct (match n with Some _ => _ | None => _ end) in E.
  - destruct (_ && _); [discriminate|]. injection E as <-. cbn. split; auto. apply keep_map; auto.
  - injection E as <-. cbn. auto. Qed.
Lemma keep_refit X d d' l0 : yrefit X d = Ok d' -> Forall2 P l0 (ym_ops d) -> Forall2 P l0 (ym_ops d') /\ ym_hasin d' = ym_hasin d.
Proof. intros E HM. unfold yrefit in E. destruct (yintrusive d); [injection E as <-; auto|]. destruct (ym_solver d); [|discriminate]. apply bind_ok in E. destruct E as (O & _ & E).
  destruct (ym_s d), (ym_r d); try discriminate. apply bind_ok in E. destruct E as (l1 & EL & E). injection E as <-. cbn. split; auto. eapply keep_extract; eauto. Qed.
Lemma keep_fit X d mus states lhs inputs d' l0 : yfit X d mus states lhs inputs = Ok d' -> Forall2 P l0 (ym_ops d) -> Forall2 P l0 (ym_ops d') /\ ym_hasin d' = ym_hasin d.
Proof. intros E HM. unfold yfit in E. destruct (yintrusive d); [injection E as <-; auto|].
  apply bind_ok in E. destruct E as ([[[d1 Q] Z] U] & EP & E). apply bind_ok in E. destruct E as (p & _ & E). apply bind_ok in E. destruct E as (l & ET & E).
  apply bind_ok in E. destruct E as (D & _ & E). apply bind_ok in E. destruct E as (L & _ & E). destruct (ym_solver d1); [|discriminate]. destruct (lsq_fit X _ _ _) as [s' x]. apply bind_ok in E. destruct E as (x' & _ & E).
  enough (H : Forall2 P l0 (ym_ops d1) /\ ym_hasin d1 = ym_hasin d).
  { destruct H as [H1 H2]. apply keep_refit with (l0 := l0) in E; cbn in *; [|eapply keep_mapM; [|exact H1|exact ET]; intros; eapply K_train; eauto]. destruct E as [A B]. split; auto. congruence. }
  unfold yprocess in EP. apply bind_ok in EP. destruct EP as (dc & Ec & EP). unfold yclear in Ec. apply bind_ok in Ec. destruct Ec as (r0 & _ & Ec). apply bind_ok in Ec. destruct Ec as (m0 & _ & Ec). injection Ec as <-.
  apply bind_ok in EP. destruct EP as (p' & _ & EP). apply bind_ok in EP. destruct EP as (d2 & E2 & EP).
  apply keep_sync with (l0 := l0) in E2; [|cbn; apply keep_map; auto using K_clear]. cbn in E2. destruct E2 as [A1 A2]. apply bind_ok in EP. destruct EP as (d3 & E3 & EP).
  assert (B : ym_ops d3 = ym_ops d2 /\ ym_hasin d3 = ym_hasin d2).
  { destruct (ym_r d2); [injection E3 as <-; auto|]. destruct (map atleast_2d states); [discriminate|]. unfold yset_r in E3. destruct (forallb _ _) in E3; [|discriminate]. injection E3 as <-. auto. }
  destruct B as (B1 & B2). repeat (destruct (negb _) in EP; [discriminate|]). apply bind_ok in EP. destruct EP as ([d4 oU4] & E4 & EP). cbn [fst snd] in EP. apply bind_ok in EP. destruct EP as (Z1 & _ & EP). injection EP as <- _ _ _.
  assert (C : ym_ops d4 = ym_ops d3 /\ ym_hasin d4 = ym_hasin d3).
  { destruct (ym_hasin d3) eqn:EH; [|injection E4 as <- _; auto]. destruct inputs as [us|]; [|discriminate]. apply bind_ok in E4. destruct E4 as (d5 & E5 & E4).
    repeat (destruct (negb _) in E4; [discriminate|]). injection E4 as <- _. rewrite <- EH.
    destruct (ym_m d3) as [[|n]|]; [|injection E5 as <-; auto|]; (destruct (map atleast_2d us); [discriminate|]; unfold yset_m in E5; destruct (_ && _) in E5; [discriminate|]; destruct (forallb _ _) in E5; [|discriminate]; injection E5 as <-; auto). }
  destruct C as [C1 C2]. rewrite C1, B1, C2, B2. auto. Qed.


Lemma keep_made args s d l0 : ymk args s = Ok d -> Forall2 P l0 (map yinit args) -> Forall2 P l0 (ym_ops d) /\ ym_hasin d = existsb (fun o => y_inputs (yo_cls o)) (map yinit args).
Proof. intros E H. unfold ymk in E. destruct (_ =? 0); [discriminate|]. destruct (negb _); [discriminate|]. apply bind_ok in E. destruct E as (r0 & _ & E). apply bind_ok in E. destruct E as (m0 & _ & E).
  apply keep_sync with (l0 := l0) in E; auto. Qed.
Lemma keep_reach X r m args d l0 : Forall2 P l0 (map yinit args) -> yreach X r m args d -> Forall2 P l0 (ym_ops d) /\ ym_hasin d = existsb (fun o => y_inputs (yo_cls o)) (map yinit args).
Proof. intros HS. induction 1 as [s d _ E|d mus states lhs inputs ks Qs Zs Us d' H [I1 I2] _ E|d g d' H [I1 I2] HG E|d d' H [I1 I2] E].
  - eapply keep_made; eauto.
  - destruct (keep_fit X d mus states lhs inputs d' _ E I1). split; auto; congruence.
  - unfold yset_regularizer in E. destruct (ym_solver d); [|discriminate]. destruct (lsq_setreg _ _) as [s' x]. apply bind_ok in E. destruct E as (y & _ & E). injection E as <-. cbn. auto.
  - destruct (keep_refit X d d' _ E I1). split; auto; congruence. Qed.
End Keep.

(* ---- fit() on models that look the same once cleared -------------------------------------------------------------------------------- *)
Definition msim (d d' : ymodel) : Prop :=
  Forall2 osim (ym_ops d) (ym_ops d') /\ ym_hasin d = ym_hasin d' /\ ym_r d = ym_r d' /\ ym_m d = ym_m d' /\ ym_solver d = ym_solver d'.
Definition rrel {A} (P : A -> A -> Prop) (x y : res A) : Prop := match x, y with Ok a, Ok b => P a b | Err e, Err e' => e = e' | _, _ => False end.
Lemma rrel_bind {A B} (P : A -> A -> Prop) (Q : B -> B -> Prop) x y f g : rrel P x y -> (forall a b, P a b -> rrel Q (f a) (g b)) -> rrel Q (bind x f) (bind y g).
Proof. destruct x, y; cbn; intros H K; auto; try contradiction. Qed.
Lemma osim_ents l l' : Forall2 osim l l' -> yents l = yents l'.
Proof. induction 1 as [|o o' l l' H HF IH]; auto. unfold yents in *. cbn [flat_map]. rewrite (os_ent _ _ H), IH. reflexivity. Qed.
Lemma osim_indims l l' : Forall2 osim l l' -> yindims l = yindims l'.
Proof. induction 1 as [|o o' l l' H HF IH]; auto. unfold yindims in *. cbn [filter]. rewrite (os_cls _ _ H). destruct (y_inputs (yo_cls o')) eqn:EI; auto. cbn [flat_map]. rewrite IH. f_equal.
  rewrite (os_cls _ _ H), (os_ent _ _ H). destruct (os_train _ _ H) as [-> | [_ E]]; auto. rewrite (os_ent _ _ H) in E. rewrite E. auto. Qed.
Lemma osim_ex (f : yop -> bool) l l' : (forall o o', osim o o' -> f o = f o') -> Forall2 osim l l' -> existsb f l = existsb f l'.
Proof. intros Hf. induction 1 as [|o o' l l' H HF IH]; auto. cbn. rewrite (Hf _ _ H), IH. auto. Qed.
Lemma osim_all (f : yop -> bool) l l' : (forall o o', osim o o' -> f o = f o') -> Forall2 osim l l' -> forallb f l = forallb f l'.
Proof. intros Hf. induction 1 as [|o o' l l' H HF IH]; auto. cbn. rewrite (Hf _ _ H), IH. auto. Qed.
Lemma osim_pdims l l' : Forall2 osim l l' -> ypdims l = ypdims l'.
Proof. intros H. unfold ypdims. f_equal. induction H as [|o o' l l' H HF IH]; auto. cbn. rewrite (os_cls _ _ H), (os_p _ _ H), IH. auto. Qed.
Lemma osim_set_p p o o' : osim o o' -> osim (set_p p o) (set_p p o').
Proof. intros H. unfold set_p. rewrite (os_cls _ _ H), (os_p _ _ H). destruct (y_par _); auto. destruct (yo_p o'); auto. destruct H as [A1 A2 A3 A4 A5]. constructor; cbn; auto; congruence. Qed.
Lemma osim_map f l l' : (forall o o', osim o o' -> osim (f o) (f o')) -> Forall2 osim l l' -> Forall2 osim (map f l) (map f l').
Proof. intros Hf. induction 1; cbn; constructor; auto. Qed.
Lemma sync_sim p d d' : msim d d' -> rrel (fun a b => msim a b /\ ym_p a = ym_p b) (ysync (Some p) d) (ysync (Some p) d').
Proof. intros (H1 & H2 & H3 & H4 & H5). unfold ysync. rewrite (osim_pdims _ _ H1). destruct (one_of (ypdims (ym_ops d'))) as [p0|e]; cbn [bind]; [|reflexivity].
  destruct p0 as [q|]; (destruct (negb _) in |- *; [reflexivity|]);
  rewrite (osim_ex _ _ _ (fun o o' H => f_equal2 andb (f_equal y_par (os_cls _ _ H)) (f_equal (fun x => match x with None => true | Some _ => false end) (os_p _ _ H))) H1);
  (destruct (_ && _) in |- *; [reflexivity|]); cbn; (split; [|reflexivity]); repeat (split; auto); cbn; apply osim_map; auto using osim_set_p. Qed.
Lemma setr_sim n d d' : msim d d' /\ ym_p d = ym_p d' -> rrel (fun a b => msim a b /\ ym_p a = ym_p b) (yset_r n d) (yset_r n d').
Proof. intros [(H1 & H2 & H3 & H4 & H5) HP]. unfold yset_r. rewrite (osim_ents _ _ H1). destruct (forallb _ _); cbn; [|reflexivity]. split; auto. repeat (split; auto). Qed.
Lemma setm_sim n d d' : msim d d' /\ ym_p d = ym_p d' -> rrel (fun a b => msim a b /\ ym_p a = ym_p b) (yset_m n d) (yset_m n d').
Proof. intros [(H1 & H2 & H3 & H4 & H5) HP]. unfold yset_m. rewrite H2, (osim_indims _ _ H1). destruct (_ && _); [reflexivity|]. destruct (forallb _ _); cbn; [|reflexivity]. split; auto. repeat (split; auto). Qed.
Lemma sub_sim o o' : osim o o' -> forall mus Qs Us Zs, ysub_op o mus Qs Us Zs = ysub_op o' mus Qs Us Zs.
Proof. intros H. assert (HA : forall mu q u, yapply o mu q u = yapply o' mu q u).
  { intros. unfold yapply, yeval, y_fits. rewrite (os_cls _ _ H), (os_ent _ _ H), (os_p _ _ H). destruct (yo_cls o') eqn:EC; auto. destruct (os_train _ _ H) as [-> | [_ E]]; auto. rewrite (os_ent _ _ H) in E. rewrite E. auto. }
  intros mus Qs Us Zs. revert mus Qs Us. induction Zs as [|Z Zs IH]; intros [|mu mus] [|Q Qs] [|U Us]; cbn [ysub_op]; auto. rewrite HA. destruct (yapply o' mu (M Q) U) as [[|Y]|]; cbn [bind]; auto.
  destruct (shape_is _ _ _); auto. rewrite IH. reflexivity. Qed.
Lemma subtract_sim l l' : Forall2 osim l l' -> forall mus Qs Us Zs, ysubtract l mus Qs Us Zs = ysubtract l' mus Qs Us Zs.
Proof. induction 1 as [|o o' l l' H HF IH]; intros; cbn [ysubtract]; auto. rewrite (os_known _ _ H). destruct (yo_known o'); auto. rewrite (sub_sim o o' H). destruct (ysub_op _ _ _ _ _); cbn [bind]; auto. Qed.
Lemma train_sim mus p l l' : Forall2 osim l l' -> mapM (ytrain mus p) l = mapM (ytrain mus p) l'.
Proof. induction 1 as [|o o' l l' H HF IH]; auto. cbn [mapM]. rewrite IH.
  replace (ytrain mus p o) with (ytrain mus p o'); auto. unfold ytrain. rewrite (os_cls _ _ H), (os_ent _ _ H), (os_known _ _ H). destruct (y_itp (yo_cls o')) eqn:EI; auto.
  f_equal. destruct H as [A1 A2 A3 A4 [A5|[A5 _]]]; [|congruence]. destruct o, o'; cbn in *; subst; auto. Qed.

Lemma process_sim d d' mus states lhs inputs : Forall2 osim (map yclear_op (ym_ops d)) (map yclear_op (ym_ops d')) -> ym_hasin d = ym_hasin d' -> ym_solver d = ym_solver d' ->
  rrel (fun a b => msim (fst (fst (fst a))) (fst (fst (fst b))) /\ ym_p (fst (fst (fst a))) = ym_p (fst (fst (fst b))) /\
    snd (fst (fst a)) = snd (fst (fst b)) /\ snd (fst a) = snd (fst b) /\ snd a = snd b) (yprocess d mus states lhs inputs) (yprocess d' mus states lhs inputs).
Proof. intros H1 H2 H3. unfold yprocess. apply rrel_bind with (P := msim).
  { unfold yclear, ystate_dim, yinput_dim. rewrite (osim_ents _ _ H1), (osim_indims _ _ H1). rewrite (osim_ex (fun o => y_inputs (yo_cls o)) _ _ (fun o o' H => f_equal y_inputs (os_cls _ _ H)) H1).
    destruct (one_of _) as [r0|]; cbn [bind]; [|reflexivity]. destruct (if existsb _ _ then _ else _) as [m0|]; cbn [bind]; [|reflexivity]. cbn. repeat (split; auto). }
  intros dc dc' Hc. destruct (params_dim mus) as [p|]; cbn [bind]; [|reflexivity].
  apply rrel_bind with (P := fun a b => msim a b /\ ym_p a = ym_p b); [apply sync_sim; auto|]. intros d2 d2' H22.
  apply rrel_bind with (P := fun a b => msim a b /\ ym_p a = ym_p b).
  { destruct (H22) as [(_ & _ & Hr & _) _]. rewrite <- Hr. destruct (ym_r d2); [exact H22|]. destruct (map atleast_2d states); [reflexivity|]. apply setr_sim; auto. }
  intros d3 d3' H33. assert (Hr : ym_r d3 = ym_r d3') by apply H33. rewrite <- Hr.
  destruct (negb (length (map atleast_2d states) =? length mus)); [reflexivity|]. destruct (negb (all_rows (ym_r d3) (map atleast_2d states))); [reflexivity|].
  destruct (negb (length (map atleast_2d lhs) =? length mus)); [reflexivity|]. destruct (negb (all_rows (ym_r d3) (map atleast_2d lhs))); [reflexivity|]. destruct (negb (same_cols _ _)); [reflexivity|].
  apply rrel_bind with (P := fun a b => (msim (fst a) (fst b) /\ ym_p (fst a) = ym_p (fst b)) /\ snd a = snd b).
  { assert (Hh : ym_hasin d3 = ym_hasin d3') by apply H33. rewrite <- Hh. destruct (ym_hasin d3); [|split; auto]. destruct inputs as [us|]; [|reflexivity].
    apply rrel_bind with (P := fun a b => msim a b /\ ym_p a = ym_p b).
    - assert (Hm : ym_m d3 = ym_m d3') by apply H33. rewrite <- Hm. destruct (ym_m d3) as [[|n]|]; [|exact H33|]; (destruct (map atleast_2d us); [reflexivity|]; apply setm_sim; auto).
    - intros d4 d4' H44. assert (Hm : ym_m d4 = ym_m d4') by apply H44. rewrite <- Hm. destruct (negb (length _ =? length mus)); [reflexivity|]. destruct (negb (all_rows _ _)); [reflexivity|].
      destruct (negb (same_cols _ _)); [reflexivity|]. split; auto. }
  intros [d4 U4] [d4' U4'] [H44 HU]. cbn [fst snd] in *. subst U4'. rewrite (subtract_sim _ _ (proj1 (proj1 H44))). destruct (ysubtract _ _ _ _ _); cbn [bind]; [|reflexivity]. cbn. repeat (split; auto); apply H44. Qed.

Lemma fit_sim X d d' mus states lhs inputs : Forall2 osim (map yclear_op (ym_ops d)) (map yclear_op (ym_ops d')) -> ym_hasin d = ym_hasin d' -> ym_solver d = ym_solver d' ->
  yintrusive d = false -> yfit X d mus states lhs inputs = yfit X d' mus states lhs inputs.
Proof. intros H1 H2 H3 HI. unfold yfit. assert (HI' : yintrusive d' = false).
  { rewrite <- HI. unfold yintrusive. clear - H1. revert H1. generalize (ym_ops d). induction (ym_ops d') as [|o l IH]; intros [|o' l'] H; inversion H as [|? ? ? ? A B]; subst; auto. cbn. f_equal; [|auto].
    assert (K := os_known _ _ A). unfold yclear_op in K. destruct (yo_known o) eqn:E0, (yo_known o') eqn:E1; cbn in K; congruence. }
  rewrite HI, HI'. assert (HP := process_sim d d' mus states lhs inputs H1 H2 H3).
  destruct (yprocess d mus states lhs inputs) as [[[[d1 Q] Z] U]|e], (yprocess d' mus states lhs inputs) as [[[[d1' Q'] Z'] U']|e']; cbn [rrel fst snd] in HP; try contradiction; [|subst; reflexivity].
  destruct HP as (HM & Hp & <- & <- & <-). cbn [bind]. destruct (params_dim mus) as [p|]; cbn [bind]; [|reflexivity]. destruct HM as (M1 & M2 & M3 & M4 & M5). rewrite (train_sim mus p _ _ M1).
  destruct (mapM _ _) as [l|]; cbn [bind]; [|reflexivity]. destruct (yassemble l mus Q U) as [D|]; cbn [bind]; [|reflexivity]. destruct (hstack_r Z) as [L|]; cbn [bind]; [|reflexivity].
  rewrite <- M5. destruct (ym_solver d1) as [s|]; [|reflexivity]. destruct (lsq_fit X s (M D) (M L)) as [s' x]. destruct x as [[]|]; cbn [bind]; [|reflexivity].
  f_equal. unfold yw_s, yw_solver, yw_ops. cbn. congruence. Qed.

(* ---- histories ------------------------------------------------------------------------------------------------------------------------ *)
Lemma init_same args : self_sized args -> Forall2 same (map yinit args) (map yinit args).
Proof. intros HS. induction args as [|a args IH]; cbn; constructor.
  - split; [apply osim_refl|]. unfold settled. cbn. intros HK. destruct (ya_ent a) as [E|] eqn:EE; [|discriminate]. split; [discriminate|]. apply (HS a E); auto. left; auto.
  - apply IH. intros b E Hb. apply HS. right; auto. Qed.
Lemma reach_same X r m args d : self_sized args -> yreach X r m args d -> Forall2 same (map yinit args) (ym_ops d) /\ ym_hasin d = existsb (fun o => y_inputs (yo_cls o)) (map yinit args).
Proof. intros HS. apply keep_reach; eauto using same_clear, same_set_p, same_train, same_ent, init_same. Qed.
Lemma made_same args s d : self_sized args -> ymk args s = Ok d -> Forall2 same (map yinit args) (ym_ops d) /\ ym_hasin d = existsb (fun o => y_inputs (yo_cls o)) (map yinit args).
Proof. intros HS E. eapply keep_made; eauto using same_clear, same_set_p, same_train, same_ent, init_same. Qed.
Lemma mk_solver args s s' d : ymk args s = Ok d -> exists d', ymk args s' = Ok d'.
Proof. unfold ymk. destruct (_ =? 0); [discriminate|]. destruct (negb _); [discriminate|]. destruct (ystate_dim _) as [r0|]; [|discriminate]. destruct (yinput_dim _) as [m0|]; [|discriminate]. cbn [bind].
  unfold ysync. cbn [ym_ops]. destruct (one_of _) as [p0|]; [|discriminate]. cbn [bind]. destruct p0 as [q|]; [|eauto]. destruct (_ && _); [discriminate|]. eauto. Qed.
Lemma reach_made X r m args d : yreach X r m args d -> exists s d0, ymk args s = Ok d0.
Proof. induction 1; eauto. Qed.
Lemma both_clear l0 : forall l l', Forall2 same l0 l -> Forall2 same l0 l' -> Forall2 osim (map yclear_op l) (map yclear_op l').
Proof. induction l0 as [|o l0 IH]; intros l l' H H'; inversion H as [|? a ? la A1 A2]; subst; inversion H' as [|? b ? lb B1 B2]; subst; cbn; constructor; auto.
  eapply osim_trans; [apply osim_sym; apply A1|apply B1]. Qed.

Lemma intrusive_same args l : y_some_unknown args -> Forall2 (fun a o => yo_known o = ygivenb a) args l -> forallb yo_known l = false.
Proof. intros Hun. apply y_unknown_given in Hun. revert l. induction args as [|a args IH]; intros l H; inversion H as [|? o ? l' C1 C2]; subst; [discriminate|].
  cbn in *. rewrite C1. destruct (ygivenb a); cbn in *; auto. Qed.
Lemma refit_solver X d d' : yrefit X d = Ok d' -> ym_solver d' = ym_solver d.
Proof. unfold yrefit. destruct (yintrusive d); [intros E; injection E as <-; auto|]. destruct (ym_solver d) eqn:ES; [|discriminate]. intros E. apply bind_ok in E. destruct E as (O & _ & E).
  destruct (ym_s d), (ym_r d); try discriminate. apply bind_ok in E. destruct E as (l1 & EL & E). injection E as <-. cbn. auto. Qed.
Lemma made_solver args s d : y_some_unknown args -> ymk args s = Ok d -> ym_solver d = Some (match s with Some s => s | None => new_plain end).
Proof. intros Hun E. apply y_unknown_given in Hun. assert (HK : forallb yo_known (map yinit args) = false).
  { rewrite <- Hun. clear. induction args as [|a args IH]; auto. cbn. rewrite IH. reflexivity. }
  unfold ymk in E. destruct (_ =? 0); [discriminate|]. destruct (negb _); [discriminate|]. apply bind_ok in E. destruct E as (r0 & _ & E). apply bind_ok in E. destruct E as (m0 & _ & E).
  rewrite HK in E. unfold ysync in E. apply bind_ok in E. destruct E as (p0 & _ & E). destruct p0 as [q|]; [destruct (_ && _) in E; [discriminate|]|]; injection E as <-; reflexivity. Qed.
Lemma reach_solver X r m args d : y_some_unknown args -> yreach X r m args d -> exists s, ym_solver d = Some s.
Proof. intros Hun. induction 1 as [s d _ E|d mus states lhs inputs ks Qs Zs Us d' H [s I] _ E|d g d' H [s I] HG E|d d' H [s I] E].
  - rewrite (made_solver args s d Hun E). eauto.
  - unfold yfit in E. destruct (yintrusive d); [injection E as <-; eauto|]. apply bind_ok in E. destruct E as ([[[d1 Q] Z] U] & EP & E). apply bind_ok in E. destruct E as (p & _ & E). apply bind_ok in E. destruct E as (l & ET & E).
    apply bind_ok in E. destruct E as (D & _ & E). apply bind_ok in E. destruct E as (L & _ & E). destruct (ym_solver d1); [|discriminate]. destruct (lsq_fit X _ _ _) as [s' x]. apply bind_ok in E. destruct E as (x' & _ & E).
    apply refit_solver in E. cbn in E. eauto.
  - unfold yset_regularizer in E. destruct (ym_solver d); [|discriminate]. destruct (lsq_setreg _ _) as [s' x]. apply bind_ok in E. destruct E as (y & _ & E). injection E as <-. cbn. eauto.
  - apply refit_solver in E. rewrite E. eauto. Qed.

(* fit() of a model with any history is fit() of a new model with the same operators and the same solver *)
Lemma fit_forgets X r m args d : y_some_unknown args -> self_sized args -> yreach X r m args d ->
  exists d0, ymk args (ym_solver d) = Ok d0 /\ forall mus states lhs inputs, yfit X d mus states lhs inputs = yfit X d0 mus states lhs inputs.
Proof. intros Hun HS HR. destruct (reach_made X r m args d HR) as (s & d1 & E1). destruct (mk_solver args s (ym_solver d) d1 E1) as (d0 & E0). exists d0. split; auto. intros mus states lhs inputs.
  destruct (reach_same X r m args d HS HR) as [A1 A2]. destruct (made_same args _ d0 HS E0) as [B1 B2]. apply fit_sim; auto; [eapply both_clear; eauto|congruence| |].
  - rewrite (made_solver args _ d0 Hun E0). destruct (reach_solver X r m args d Hun HR) as [s0 ->]. reflexivity.
  - apply (intrusive_same args); auto. clear - A1. revert A1. generalize (ym_ops d). induction args as [|a args IH]; intros l H; inversion H as [|? o ? l' C1 C2]; subst; constructor; auto.
    rewrite <- (same_known _ _ C1). reflexivity. Qed.

(* ---- what is rejected ------------------------------------------------------------------------------------------------------------------ *)
Record marked (a : yarg) (o : yop) : Prop := {
  mr_known : yo_known o = ygivenb a;
  mr_cls : yo_cls o = ya_cls a;
  mr_ent : ygivenb a = true -> yo_ent o = ya_ent a;
  mr_p : ygivenb a = true -> forall p, ya_p a = Some p -> yo_p o = Some p }.
Lemma marked_init args : Forall2 marked args (map yinit args).
Proof. induction args as [|a args IH]; cbn; constructor; auto. constructor; cbn; auto. Qed.
Lemma marked_reach X r m args d : yreach X r m args d -> Forall2 marked args (ym_ops d).
Proof. intros HR. refine (proj1 (keep_reach _ marked _ _ _ _ X r m args d args (marked_init args) HR)); clear.
  - intros a o [H1 H2 H3 H4]. unfold yclear_op. destruct (yo_known o) eqn:E; constructor; auto; cbn; try (intros HG; congruence); congruence.
  - intros p a o [H1 H2 H3 H4]. unfold set_p. destruct (y_par _); [|constructor; auto]. destruct (yo_p o) eqn:E; [constructor; auto; rewrite E; auto|]. constructor; cbn; auto. intros HG p0 Hp. specialize (H4 HG p0 Hp). congruence.
  - intros mus p a o o' [H1 H2 H3 H4] E. unfold ytrain in E. destruct (y_itp (yo_cls o)) eqn:EI; [|injection E as <-; constructor; auto]. destruct (yo_ent o) eqn:EE; [discriminate|]. destruct mus; [discriminate|]. injection E as <-.
    constructor; cbn; auto; intros HG; specialize (H3 HG); unfold ygivenb in HG; rewrite <- H3 in HG; discriminate.
  - intros E a o [H1 H2 H3 H4] EK. constructor; cbn; auto; intros HG; congruence. Qed.
Lemma one_of_in l x p : one_of l = Ok x -> In p l -> x = Some p.
Proof. unfold one_of. destruct l as [|n l]; [contradiction|]. destruct (forallb _ _) eqn:EF; [|discriminate]. intros E. injection E as <-. intros [<-|H]; auto. rewrite forallb_forall in EF. apply EF in H. apply Nat.eqb_eq in H. subst. auto. Qed.
(* a known parametric operator fixes the dimension of the parameters *)
Lemma fit_wrong_dimension X r m args d a E p p' mus states lhs inputs : y_some_unknown args -> yreach X r m args d -> In a args -> y_par (ya_cls a) = true -> ya_ent a = Some E -> ya_p a = Some p ->
  params_dim mus = Ok p' -> p' <> p -> forall d', yfit X d mus states lhs inputs <> Ok d'.
Proof. intros Hun HR Ha HP HE Hp Hd Hne d' F. assert (HM := marked_reach X r m args d HR). unfold yfit in F.
  assert (HI : yintrusive d = false). { apply (intrusive_same args); auto. clear - HM. induction HM as [|a o args l [H _ _ _] HM IH]; constructor; auto. }
  rewrite HI in F. apply bind_ok in F. destruct F as (t & F & _). unfold yprocess in F. apply bind_ok in F. destruct F as (d1 & F1 & F). rewrite Hd in F. cbn [bind] in F. apply bind_ok in F. destruct F as (d2 & F2 & _).
  unfold yclear in F1. apply bind_ok in F1. destruct F1 as (r0 & _ & F1). apply bind_ok in F1. destruct F1 as (m0 & _ & F1). injection F1 as <-.
  unfold ysync in F2. apply bind_ok in F2. destruct F2 as (p0 & F3 & F2). cbn [ym_ops yw_dims yw_ops] in F3. apply one_of_in with (p := p) in F3.
  - subst p0. assert (HN : (p =? p') = false) by (apply Nat.eqb_neq; congruence). rewrite HN in F2. discriminate.
  - clear - HM Ha HE Hp HP. induction HM as [|b o args l [H1 H2 H3 H4] HM IH]; [contradiction|]. unfold ypdims in *. cbn. destruct Ha as [ -> | Ha].
    + assert (HG : ygivenb a = true) by (unfold ygivenb; rewrite HE; auto). unfold yclear_op at 1 2. rewrite H1, HG. rewrite H2, HP, (H4 HG p Hp). cbn. auto.
    + destruct (if y_par _ then _ else _) in |- *; cbn; auto. Qed.
Lemma y_infer_types args : map (fun o => y_type (yo_cls o)) (y_infer (map yinit args)) = map (fun a => y_type (ya_cls a)) (filter (fun a => negb (ygivenb a)) args).
Proof. unfold y_infer. induction args as [|a args IH]; cbn; auto. unfold ygivenb at 1. destruct (ya_ent a); cbn; auto. f_equal. auto. Qed.
Lemma ymk_duplicate args s i j a b : i < j -> nth_error args i = Some a -> nth_error args j = Some b -> ya_ent a = None -> ya_ent b = None -> y_type (ya_cls a) = y_type (ya_cls b) ->
  ymk args s = Err ValueError.
Proof. intros Hij Hi Hj Ha Hb HT. unfold ymk. destruct (_ =? 0); auto. match goal with |- context [negb (length (nodup ?a ?l) =? ?n)] => assert (HN : length (nodup a l) <> n) end.
  2:{ apply Nat.eqb_neq in HN. rewrite HN. reflexivity. }
  assert (HL : length (y_infer (map yinit args)) = length (map (fun o => y_type (yo_cls o)) (y_infer (map yinit args)))) by (rewrite map_length; auto).
  rewrite HL, y_infer_types. clear HL.
  assert (ND : ~ NoDup (map (fun a => y_type (ya_cls a)) (filter (fun a => negb (ygivenb a)) args))).
  { apply nth_error_split in Hi. destruct Hi as (l1 & l2 & -> & Hl). rewrite nth_error_app2 in Hj by lia. destruct (j - length l1) as [|j'] eqn:EJ; [lia|]. cbn in Hj.
    apply nth_error_split in Hj. destruct Hj as (l3 & l4 & -> & _). assert (Ga : ygivenb a = false) by (unfold ygivenb; rewrite Ha; auto). assert (Gb : ygivenb b = false) by (unfold ygivenb; rewrite Hb; auto).
    rewrite filter_app, map_app. cbn. rewrite Ga. cbn. rewrite filter_app, map_app. cbn. rewrite Gb. cbn. intros HX.
    apply NoDup_remove_2 in HX. apply HX. rewrite !in_app_iff. right. right. left. auto. }
  intros HN. apply ND. clear - HN. set (l := map (fun a => y_type (ya_cls a)) (filter (fun a => negb (ygivenb a)) args)) in *.
  apply (@NoDup_incl_NoDup nat (nodup Nat.eq_dec l) l); [apply NoDup_nodup|exact (Nat.eq_le_incl _ _ (eq_sym HN))|]. intros x Hx. apply nodup_In in Hx. auto. Qed.
(* after fit(), the model can only be evaluated at parameters with as many components as those of the training data *)
Lemma rhs_wrong_dimension X r m args xs mus states lhs inputs ks Qs Zs Us d' a p mu q u : lsx_ok X -> 0 < r -> Forall2 (ydescribed r m) args xs -> y_some_unknown args ->
  ydata r m args mus states lhs inputs ks Qs Zs Us -> ysession X r m args mus states lhs inputs d' -> In a args -> y_par (ya_cls a) = true -> params_dim mus = Ok p -> plen mu <> p ->
  forall y, yrhs d' mu q u <> Ok y.
Proof. intros HX Hr HF Hun HD HS Ha HP Hp Hne y E. apply y_unknown_given in Hun.
  assert (HFd : yfitted X r m args xs mus ks Qs Zs Us d').
  { induction HS as [d d' HR E0|d g d1 d' HS IH HG E1 E2].
    - assert (HI := yreach_inv X r m args xs d HX Hr HF HR). destruct (yfit_inv X r m args xs mus states lhs inputs ks Qs Zs Us HX Hr HF Hun HD d d' HI E0) as (d1 & H1 & E1 & _).
      eapply refit_learns; eauto.
    - assert (H1 : yfitted X r m args xs mus ks Qs Zs Us d).
      { clear - HX Hr HF Hun HD HS. induction HS as [d d' HR E0|d g d1 d' HS IH HG E1 E2].
        - assert (HI := yreach_inv X r m args xs d HX Hr HF HR). destruct (yfit_inv X r m args xs mus states lhs inputs ks Qs Zs Us HX Hr HF Hun HD d d' HI E0) as (d1 & H1 & E1 & _). eapply refit_learns; eauto.
        - assert (H1 := yset_reg_fitted X r m args xs mus ks Qs Zs Us d g d1 HG IH E1). eapply refit_learns; eauto. }
      assert (H2 := yset_reg_fitted X r m args xs mus ks Qs Zs Us d g d1 HG H1 E1). eapply refit_learns; eauto. }
  unfold yrhs, yevaluate in E. apply bind_ok in E. destruct E as (e & E & _). apply bind_ok in E. destruct E as (l & E & _).
  assert (HT := yf_train _ _ _ _ _ _ _ _ _ _ _ HFd). assert (HM := yi_ops _ _ _ (yf_inv _ _ _ _ _ _ _ _ _ _ _ HFd)).
  clear - HM HT E Ha HP Hp Hne. revert l HT E. induction HM as [|b o args l0 [H1 _ _] HM IH]; intros l HT E; [contradiction|]. inversion HT as [|? ? [_ T1] T0]; subst.
  cbn [mapM] in E. apply bind_ok in E. destruct E as (x & Ex & E). apply bind_ok in E. destruct E as (l' & El & _). destruct Ha as [ -> | Ha]; [|eapply IH; eauto].
  rewrite H1 in T1. destruct (T1 HP) as (p' & Hp' & Eo). assert (p' = p) as -> by congruence. unfold yeval in Ex. rewrite H1 in Ex. destruct (ya_cls a); [discriminate|].
  destruct (yo_ent o); [|discriminate]. unfold y_fits in Ex. rewrite Eo in Ex. apply Nat.eqb_neq in Hne. rewrite Hne in Ex. discriminate. Qed.

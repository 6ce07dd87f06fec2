(* GenMain.v -- the statements of Prop_Gen.v. *)
From Coq Require Import ZArith String.
From Verif Require Import LinAlg MatAlg BlockAlg TupleFinal OpsProofs AffProofs PolyOpProofs.
From Verif Require Export GenProofs.
#[local] Open Scope nat_scope.
#[local] Open Scope list_scope.

Lemma some_unknown_given args : some_unknown args <-> forallb given args = false.
Proof. split.
  - intros (c & H). destruct (forallb given args) eqn:E; auto. rewrite forallb_forall in E. specialize (E _ H). discriminate.
  - induction args as [|[c [E|]] args IH]; cbn; try discriminate.
    + intros H. destruct (IH H) as (c' & Hc). exists c'. right. auto.
    + intros _. exists c. left. auto. Qed.

Lemma gmisfit r m k args fs Q Z U Es i : 0 < r -> 0 < k -> Forall2 (described r m) args fs -> forallb given args = false -> valued r args fs Es -> i < r ->
  misfit k (unknowns args fs) (gD r m k Q U args fs) (gL r m k Q Z U args fs) (hstack (learned args Es)) i = misfit_of r m k fs Es Q Z U i.
Proof. intros Hr Hk HF Hn HV Hi. unfold misfit, misfit_of. apply bsum_ext. intros j Hj. f_equal.
  rewrite <- (gdot r m k Q U i j Hi Hj args fs Es HF HV (tolearn_ne r m args fs HF Hn)). unfold gL. rewrite mget_tab2 by auto. ring. Qed.

Lemma gfill_ents r args : forall fs Es, valued r args fs Es -> map go_ent (gfill args Es) = map Some Es.
Proof. induction args as [|a args IH]; intros [|f fs] [|E Es] H; cbn in H; try tauto; cbn; auto. f_equal. apply (IH fs). tauto. Qed.
Lemma gfill_infer r args : forall fs Es, valued r args fs Es -> gents (to_infer (gfill args Es)) = learned args Es.
Proof. induction args as [|[c [E0|]] args IH]; intros [|f fs] [|E Es] H; cbn in H; try tauto; cbn; auto.
  - apply (IH fs). tauto.
  - f_equal. apply (IH fs). tauto. Qed.
Lemma ents_trained (l : list gop) (Es : list mat) : map go_ent l = map Some Es -> existsb (fun o => match go_ent o with None => true | Some _ => false end) l = false.
Proof. revert Es. induction l as [|o l IH]; intros [|E Es] H; cbn in *; try discriminate; auto. injection H as -> H. eauto. Qed.
Lemma gdone_matrix X r m k args fs Q Z U d Es s : Forall2 (described r m) args fs -> forallb given args = false -> valued r args fs Es ->
  gfitted X r m k args fs Q Z U d ->
  goperator_matrix (gdone args d r m s Es) = Ok (hstack (learned args Es)).
Proof. intros HF Hn HV H. unfold goperator_matrix, gdone. cbn [gm_r gm_m gm_hasin gm_ops]. rewrite andb_false_r.
  rewrite (ents_trained _ Es) by (apply (gfill_ents r args fs); auto). rewrite (gfill_infer r args fs) by auto.
  assert (HN := learned_ne r args fs Es HV (tolearn_ne r m args fs HF Hn)). destruct (learned args Es); [congruence|reflexivity]. Qed.

Lemma gsum_ok r m args fs q u ou : 0 < r -> Forall2 (described r m) args fs -> is_vec r q -> is_vec m u -> (any_inputs args -> ou = Some (V u)) ->
  forall Es acc, valued r args fs Es -> is_vec r acc ->
  exists y, gsum (gfill args Es) (V q) ou (V acc) = Ok (V y) /\ is_vec r y /\ forall i, i < r -> vget y i = (vget acc i + value fs Es q u i)%R.
Proof. intros Hr HF Hq Hu. induction HF as [|a f args fs (HL & HE) HF IH]; intros Hin [|E Es] acc HV Ha; cbn [valued] in HV; try tauto.
  - exists acc. split; auto. split; auto. intros. cbn. ring.
  - destruct HV as (H1 & H2 & HV). cbn [gfill gsum go_ent go_cls].
    destruct (lw_vec _ _ _ _ HL E q u ou H1 Hq Hu) as (y & Ey & Hy & Hv). { intros Hx. apply Hin. exists a. split; [left; auto|auto]. }
    rewrite Ey. cbn [bind iadd]. unfold is_vec in Hy, Ha. rewrite Hy, Ha, Nat.eqb_refl. cbn [bind].
    destruct (IH) with (Es := Es) (acc := vadd acc y) as (w & E2 & Hw & Hv2); auto.
    { intros (a0 & Ha0 & Hb); apply Hin; exists a0; split; [right; auto|auto]. } { apply is_vec_vadd; auto. }
    exists w. split; auto. split; auto. intros i Hi. rewrite Hv2 by auto. rewrite (vget_vadd r) by auto. rewrite Hv by auto. cbn [value]. ring. Qed.
Lemma grhs_ok r m args fs q u ou d s Es : 0 < r -> Forall2 (described r m) args fs -> is_vec r q -> is_vec m u -> (any_inputs args -> ou = Some (V u)) ->
  valued r args fs Es ->
  exists y, grhs (gdone args d r m s Es) (V q) ou = Ok (V y) /\ is_vec r y /\ forall i, i < r -> vget y i = value fs Es q u i.
Proof. intros Hr HF Hq Hu Hin HV. unfold grhs. cbn [gdone gm_ops emap].
  destruct (gsum_ok r m args fs q u ou Hr HF Hq Hu Hin Es (map (fun _ => 0%R) q) HV) as (y & E & Hy & Hv). { unfold is_vec. rewrite map_length. auto. }
  exists y. split; auto. split; auto. intros i Hi. rewrite Hv by auto. rewrite vget_map by (unfold is_vec in Hq; lia). ring. Qed.

Lemma fitted_learns X r m k args fs Q Z U d s O : lsx_ok X -> 0 < r -> 0 < m -> 0 < k -> Forall2 (described r m) args fs -> forallb given args = false ->
  gfitted X r m k args fs Q Z U d -> gm_solver d = Some s -> lsq_solve X s = Ok O -> is_mat r (unknowns args fs) O ->
  learns X r m k args fs Q Z U (gdone args d r m s (place args fs O 0)).
Proof. intros HX Hr Hm Hk HF Hn H Es EO HO. assert (HV := place_valued r m _ O HO args fs HF 0 (le_n _)).
  assert (EH : hstack (learned args (place args fs O 0)) = O).
  { rewrite (place_learned r m _ O HO Hr args fs HF 0 (tolearn_ne r m args fs HF Hn) (le_n _)). apply (mcols_all r); auto. }
  exists (place args fs O 0). split; auto. split; [apply (gfill_ents r args fs); auto|]. split; [eapply gdone_matrix; eauto|]. split; [rewrite EH; auto|].
  split; [intros; eapply grhs_ok; eauto|]. exists s. split; auto. intros pen HP Es' i HV' Hi.
  rewrite <- !(gmisfit r m k args fs Q Z U) by auto. rewrite EH.
  destruct (gf_solver _ _ _ _ _ _ _ _ _ _ H) as (s0 & E0 & HW & HC). assert (s0 = s) as -> by congruence.
  destruct (lsq_solve_clean X s _ _ O HX HC EO) as [_ HB]. destruct (gD_dims r m k Q U args fs Hk HF Hn) as [ED1 ED2]. rewrite ED1, ED2, gL_dims in HB.
  destruct (HB pen HP) as [_ HM]. apply (HM (hstack (learned args Es')) i); auto. apply (learned_shape r m args fs); auto. Qed.

Lemma gset_reg_fitted X r m k args fs Q Z U d g d' : valid_reg g -> gfitted X r m k args fs Q Z U d -> gset_regularizer g d = Ok d' ->
  gfitted X r m k args fs Q Z U d'.
Proof. intros HG H E. unfold gset_regularizer in E. destruct (gf_solver _ _ _ _ _ _ _ _ _ _ H) as (s & Es & HW & HC). rewrite Es in E.
  destruct (lsq_setreg s g) as [s' x] eqn:EG. destruct x as [[]|]; [|discriminate]. injection E as <-.
  assert (W' : winv X s'). { assert (Hx := lsq_setreg_winv X s g HW HG). rewrite EG in Hx. exact Hx. }
  destruct H as [I1 I2 I3 I4]. constructor; cbn; auto.
  - destruct I1 as [J1 J2 J3]. constructor; cbn; auto. intros _. exists s'. auto.
  - exists s'. split; auto. split; auto. exact (lsq_setreg_clean X s g s' _ _ HW HG HC EG). Qed.
Lemma grefit_fitted X r m k args fs Q Z U d d' : lsx_ok X -> 0 < r -> 0 < m -> 0 < k -> Forall2 (described r m) args fs -> forallb given args = false ->
  gfitted X r m k args fs Q Z U d -> grefit X d = Ok d' -> gfitted X r m k args fs Q Z U d' /\ learns X r m k args fs Q Z U d'.
Proof. intros HX Hr Hm Hk HF Hn H E. destruct (grefit_eq X r m k args fs Q Z U d HX Hr Hk HF Hn H) as (s & Es & HO & ER). rewrite ER in E.
  destruct (lsq_solve X s) as [O|] eqn:EO; [|discriminate]. cbn [bind] in E. injection E as <-. specialize (HO O eq_refl).
  split; [|eapply fitted_learns; eauto]. destruct (gf_solver _ _ _ _ _ _ _ _ _ _ H) as (s0 & E0 & HW & HC). assert (s0 = s) as -> by congruence.
  apply gdone_fitted; auto. { apply (gf_inv _ _ _ _ _ _ _ _ _ _ H). } apply (place_valued r m _ O HO); auto. Qed.

Lemma session_learns X r m k args fs states lhs inputs Q Z U d' : lsx_ok X -> 0 < r -> 0 < m -> Forall2 (described r m) args fs -> some_unknown args ->
  data r m k args states lhs inputs Q Z U -> gsession X r m args states lhs inputs d' ->
  learns X r m k args fs Q Z U d'.
Proof. intros HX Hr Hm HF Hn HD HS. apply some_unknown_given in Hn. assert (Hk := dt_k _ _ _ _ _ _ _ _ _ _ HD).
  enough (gfitted X r m k args fs Q Z U d' /\ learns X r m k args fs Q Z U d') by tauto.
  induction HS as [d d' HR E|d g d1 d' HS [IH _] HG E1 E2].
  - assert (HI := greach_inv X r m args fs d HX Hr Hm HF HR).
    destruct (gfit_fitted X r m k args fs d states lhs inputs Q Z U d' HX Hr Hm HF Hn HI HD E) as (s' & O & HFd & Ed & Es & EO & HO & _).
    split; auto. assert (HL := fitted_learns X r m k args fs Q Z U d' s' O HX Hr Hm Hk HF Hn HFd Es EO HO).
    assert (Ed2 : gdone args d' r m s' (place args fs O 0) = d') by (rewrite Ed; reflexivity). rewrite Ed2 in HL. exact HL.
  - apply (grefit_fitted X r m k args fs Q Z U d1 d' HX Hr Hm Hk HF Hn); auto. apply (gset_reg_fitted X r m k args fs Q Z U d g d1); auto. Qed.

(* fit() leaves the regularizer alone *)
Lemma fit_keeps_penalty X r m k args fs d states lhs inputs Q Z U d' : lsx_ok X -> 0 < r -> 0 < m -> Forall2 (described r m) args fs -> some_unknown args ->
  greach X r m args d -> data r m k args states lhs inputs Q Z U -> gfit X d states lhs inputs = Ok d' ->
  exists s s', gm_solver d = Some s /\ gm_solver d' = Some s' /\ forall w, penalty s' w = penalty s w.
Proof. intros HX Hr Hm HF Hn HR HD E. apply some_unknown_given in Hn. assert (HI := greach_inv X r m args fs d HX Hr Hm HF HR).
  destruct (gfit_fitted X r m k args fs d states lhs inputs Q Z U d' HX Hr Hm HF Hn HI HD E) as (s' & O & HFd & Ed & Es & EO & HO & HP).
  destruct (gi_solver _ _ _ HI Hn) as (s & E0 & _). exists s, s'. split; auto. Qed.

(* ---- classes with the same features are interchangeable ------------------------------------------------------------------- *)
Lemma tolearn_same args1 args2 : map snd args1 = map snd args2 -> forall fs, tolearn args1 fs = tolearn args2 fs.
Proof. revert args2. induction args1 as [|[c1 e1] args1 IH]; intros [|[c2 e2] args2] H; cbn in H; try discriminate; auto. injection H as -> H.
  intros [|f fs]; cbn; [destruct e2; auto|]. destruct e2; [apply IH; auto|f_equal; apply IH; auto]. Qed.
Lemma knownval_same args1 args2 q u i : map snd args1 = map snd args2 -> forall fs, knownval args1 fs q u i = knownval args2 fs q u i.
Proof. revert args2. induction args1 as [|[c1 e1] args1 IH]; intros [|[c2 e2] args2] H; cbn in H; try discriminate; auto. injection H as -> H.
  intros [|f fs]; cbn; [destruct e2; auto|]. destruct e2; [f_equal; apply IH; auto|apply IH; auto]. Qed.
Lemma place_same args1 args2 O : map snd args1 = map snd args2 -> forall fs idx, place args1 fs O idx = place args2 fs O idx.
Proof. revert args2. induction args1 as [|[c1 e1] args1 IH]; intros [|[c2 e2] args2] H; cbn in H; try discriminate; auto. injection H as -> H.
  intros [|f fs] idx; cbn; [destruct e2; auto|]. destruct e2; f_equal; apply IH; auto. Qed.
Lemma given_same args1 args2 : map snd args1 = map snd args2 -> forallb given args1 = forallb given args2.
Proof. revert args2. induction args1 as [|[c1 e1] args1 IH]; intros [|[c2 e2] args2] H; cbn in H; try discriminate; auto. injection H as -> H.
  cbn. rewrite (IH args2) by auto. reflexivity. Qed.

Lemma same_features_same_fit X r m k args1 args2 fs d1 d2 states lhs inputs1 inputs2 Q Z U : lsx_ok X -> 0 < r -> 0 < m ->
  Forall2 (described r m) args1 fs -> Forall2 (described r m) args2 fs -> map snd args1 = map snd args2 -> some_unknown args1 ->
  greach X r m args1 d1 -> greach X r m args2 d2 -> gm_solver d1 = gm_solver d2 ->
  data r m k args1 states lhs inputs1 Q Z U -> data r m k args2 states lhs inputs2 Q Z U ->
  match gfit X d1 states lhs inputs1, gfit X d2 states lhs inputs2 with
  | Ok d1', Ok d2' =>
      map go_ent (gm_ops d1') = map go_ent (gm_ops d2') /\ gm_solver d1' = gm_solver d2' /\ goperator_matrix d1' = goperator_matrix d2' /\
      forall q u ou1 ou2, is_vec r q -> is_vec m u -> (any_inputs args1 -> ou1 = Some (V u)) -> (any_inputs args2 -> ou2 = Some (V u)) ->
        grhs d1' (V q) ou1 = grhs d2' (V q) ou2
  | Err e1, Err e2 => e1 = e2
  | _, _ => False
  end.
Proof. intros HX Hr Hm HF1 HF2 HE Hn HR1 HR2 HS HD1 HD2. apply some_unknown_given in Hn. assert (Hn2 := Hn). rewrite (given_same _ args2) in Hn2 by auto.
  assert (HI1 := greach_inv X r m args1 fs d1 HX Hr Hm HF1 HR1). assert (HI2 := greach_inv X r m args2 fs d2 HX Hr Hm HF2 HR2).
  assert (K1 : forall d1' d2', gfit X d1 states lhs inputs1 = Ok d1' -> gfit X d2 states lhs inputs2 = Ok d2' ->
    forall s' O, d1' = gdone args1 d1 r m s' (place args1 fs O 0) -> d2' = gdone args2 d2 r m s' (place args2 fs O 0) -> is_mat r (unknowns args1 fs) O ->
      map go_ent (gm_ops d1') = map go_ent (gm_ops d2') /\ gm_solver d1' = gm_solver d2' /\ goperator_matrix d1' = goperator_matrix d2' /\
      forall q u ou1 ou2, is_vec r q -> is_vec m u -> (any_inputs args1 -> ou1 = Some (V u)) -> (any_inputs args2 -> ou2 = Some (V u)) ->
        grhs d1' (V q) ou1 = grhs d2' (V q) ou2).
  { intros d1' d2' F1 F2 s' O -> -> HO. assert (HO2 := HO). rewrite unknowns_tolearn, (tolearn_same args1 args2), <- unknowns_tolearn in HO2 by auto.
    assert (HV1 := place_valued r m _ O HO args1 fs HF1 0 (le_n _)). assert (HV2 := place_valued r m _ O HO2 args2 fs HF2 0 (le_n _)).
    assert (EP := place_same args1 args2 O HE fs 0).
    destruct (gfit_fitted X r m k args1 fs d1 states lhs inputs1 Q Z U _ HX Hr Hm HF1 Hn HI1 HD1 F1) as (s1 & O1 & HFd1 & _).
    destruct (gfit_fitted X r m k args2 fs d2 states lhs inputs2 Q Z U _ HX Hr Hm HF2 Hn2 HI2 HD2 F2) as (s2 & O2 & HFd2 & _).
    split. { cbn [gdone gm_ops]. rewrite (gfill_ents r args1 fs), (gfill_ents r args2 fs), EP by auto. reflexivity. }
    split; [reflexivity|]. split.
    { change (gdone args1 d1 r m s' (place args1 fs O 0)) with (gdone args1 (gdone args1 d1 r m s' (place args1 fs O 0)) r m s' (place args1 fs O 0)).
      change (gdone args2 d2 r m s' (place args2 fs O 0)) with (gdone args2 (gdone args2 d2 r m s' (place args2 fs O 0)) r m s' (place args2 fs O 0)).
      rewrite (gdone_matrix X r m k args1 fs Q Z U _ _ _ HF1 Hn HV1 HFd1), (gdone_matrix X r m k args2 fs Q Z U _ _ _ HF2 Hn2 HV2 HFd2).
      assert (HT1 := tolearn_ne r m args1 fs HF1 Hn). assert (HT2 := tolearn_ne r m args2 fs HF2 Hn2).
      rewrite (place_learned r m _ O HO Hr args1 fs HF1 0 HT1 (le_n _)), (place_learned r m _ O HO2 Hr args2 fs HF2 0 HT2 (le_n _)).
      rewrite !unknowns_tolearn, (tolearn_same args1 args2) by auto. reflexivity. }
    intros q u ou1 ou2 Hq Hu H1 H2. destruct (grhs_ok r m args1 fs q u ou1 d1 s' _ Hr HF1 Hq Hu H1 HV1) as (y1 & -> & Hy1 & Hv1).
    destruct (grhs_ok r m args2 fs q u ou2 d2 s' _ Hr HF2 Hq Hu H2 HV2) as (y2 & -> & Hy2 & Hv2). do 2 f_equal. apply (vec_ext r); auto.
    intros i Hi. rewrite Hv1, Hv2, EP by auto. reflexivity. }
  destruct (gfit X d1 states lhs inputs1) as [d1'|e1] eqn:F1; destruct (gfit X d2 states lhs inputs2) as [d2'|e2] eqn:F2;
  destruct (gfit_eq X r m k args1 fs d1 states lhs inputs1 Q Z U HX Hr Hm HF1 Hn HI1 HD1) as (s & Es & HW & E1);
  destruct (gfit_eq X r m k args2 fs d2 states lhs inputs2 Q Z U HX Hr Hm HF2 Hn2 HI2 HD2) as (s2 & Es2 & _ & E2);
  assert (s2 = s) as -> by congruence;
  assert (EDD : gD r m k Q U args2 fs = gD r m k Q U args1 fs) by (unfold gD; rewrite (tolearn_same args1 args2) by auto; reflexivity);
  assert (ELL : gL r m k Q Z U args2 fs = gL r m k Q Z U args1 fs)
    by (apply (mat_ext r k); try apply is_mat_tab2; intros i j Hi Hj; unfold gL; rewrite !mget_tab2 by auto; rewrite (knownval_same args1 args2) by auto; reflexivity);
  rewrite EDD, ELL in E2; destruct (lsq_fit X s (M (gD r m k Q U args1 fs)) (M (gL r m k Q Z U args1 fs))) as [s' x] eqn:EF;
  rewrite F1 in E1; rewrite F2 in E2; destruct x as [[]|]; cbn [bind] in E1, E2; try congruence; destruct (lsq_solve X s') as [O|] eqn:EO; cbn [bind] in E1, E2; try congruence.
  apply (K1 d1' d2' eq_refl eq_refl s' O); try congruence.
  destruct (gfit_fitted X r m k args1 fs d1 states lhs inputs1 Q Z U d1' HX Hr Hm HF1 Hn HI1 HD1 F1) as (s3 & O3 & _ & Ed & Es3 & EO3 & HO3 & _).
  assert (gm_solver d1' = Some s') by (injection E1 as ->; reflexivity). assert (s3 = s') as -> by congruence. assert (O3 = O) as -> by congruence. auto. Qed.

(* ---- the constructor --------------------------------------------------------------------------------------------------------- *)
Lemma infer_types args : map (fun o => oc_type (go_cls o)) (to_infer (map ginit args)) = map (fun a => oc_type (fst a)) (filter (fun a => negb (given a)) args).
Proof. unfold to_infer. induction args as [|[c [E|]] args IH]; cbn; auto. f_equal. auto. Qed.
Lemma gmk_duplicate args s i j c1 c2 : i < j -> nth_error args i = Some (c1, None) -> nth_error args j = Some (c2, None) -> oc_type c1 = oc_type c2 ->
  gmk args s = Err ValueError.
Proof. intros Hij Hi Hj HT. unfold gmk.
  change (map (fun a : ocls * option mat => {| go_cls := fst a; go_ent := snd a; go_known := match snd a with Some _ => true | None => false end |}) args) with (map ginit args).
  destruct (_ =? 0); auto. match goal with |- context [negb (length (nodup ?a ?l) =? ?n)] => assert (HN : length (nodup a l) <> n) end.
  2:{ apply Nat.eqb_neq in HN. rewrite HN. reflexivity. }
  assert (HL : length (to_infer (map ginit args)) = length (map (fun o => oc_type (go_cls o)) (to_infer (map ginit args)))) by (rewrite map_length; auto).
  rewrite HL, infer_types. clear HL.
  assert (ND : ~ NoDup (map (fun a : garg => oc_type (fst a)) (filter (fun a => negb (given a)) args))).
  { apply nth_error_split in Hi. destruct Hi as (l1 & l2 & -> & Hl). rewrite nth_error_app2 in Hj by lia. destruct (j - length l1) as [|j'] eqn:EJ; [lia|]. cbn in Hj.
    apply nth_error_split in Hj. destruct Hj as (l3 & l4 & -> & _). rewrite filter_app, map_app. cbn. rewrite filter_app, map_app. cbn. intros HX.
    apply NoDup_remove_2 in HX. apply HX. rewrite !in_app_iff. right. right. left. auto. }
  intros HN. apply ND. clear - HN. set (l := map (fun a : garg => oc_type (fst a)) (filter (fun a => negb (given a)) args)) in *.
  apply (@NoDup_incl_NoDup nat (nodup Nat.eq_dec l) l); [apply NoDup_nodup|exact (Nat.eq_le_incl _ _ (eq_sym HN))|]. intros x Hx. apply nodup_In in Hx. auto. Qed.
Lemma gmk_ok r m args fs s : Forall2 (described r m) args fs -> args <> [] ->
  NoDup (map (fun a => oc_type (fst a)) (filter (fun a => negb (given a)) args)) ->
  exists d, gmk args s = Ok d /\ map go_ent (gm_ops d) = map snd args /\ map go_cls (gm_ops d) = map fst args.
Proof. intros HF Hne HN. unfold gmk.
  change (map (fun a : ocls * option mat => {| go_cls := fst a; go_ent := snd a; go_known := match snd a with Some _ => true | None => false end |}) args) with (map ginit args).
  rewrite map_length. destruct args as [|a0 args0] eqn:EA; [congruence|]. rewrite <- EA in *. replace (length args =? 0) with false by (rewrite EA; reflexivity).
  assert (HL : length (to_infer (map ginit args)) = length (map (fun o => oc_type (go_cls o)) (to_infer (map ginit args)))) by (rewrite map_length; auto).
  rewrite HL, infer_types, (nodup_fixed_point Nat.eq_dec HN), Nat.eqb_refl. cbn [negb].
  destruct (forall_one_of r _ (init_rows r m args fs HF)) as (r0 & E1 & _). unfold gstate_dim. rewrite E1. cbn [bind].
  destruct (forall_one_of m _ (init_cols r m args fs HF)) as (m0 & E2 & _). unfold ginput_dim. rewrite E2.
  destruct (existsb _ _); cbn [bind]; (eexists; split; [reflexivity|]; cbn; rewrite !map_map; split; reflexivity). Qed.
Lemma gmk_accepts r m args fs s : Forall2 (described r m) args fs -> args <> [] ->
  (forall i j c1 c2, i < j -> nth_error args i = Some (c1, None) -> nth_error args j = Some (c2, None) -> oc_type c1 <> oc_type c2) ->
  exists d, gmk args s = Ok d /\ map go_ent (gm_ops d) = map snd args /\ map go_cls (gm_ops d) = map fst args.
Proof. intros HF Hne HT. apply (gmk_ok r m args fs); auto. clear - HT. induction args as [|[c e] args IH]; [constructor|].
  assert (IH2 : NoDup (map (fun a : garg => oc_type (fst a)) (filter (fun a => negb (given a)) args))).
  { apply IH. intros i j c1 c2 Hij Hi Hj. apply (HT (S i) (S j)); auto. lia. }
  destruct e as [E|]; cbn; auto. constructor; auto. intros Hin. apply in_map_iff in Hin. destruct Hin as ([c2 e2] & Ht & Hin). apply filter_In in Hin. destruct Hin as [Hin Hg].
  destruct e2; [discriminate|]. apply In_nth_error in Hin. destruct Hin as [j Hj]. apply (HT 0 (S j) c c2); auto. lia. Qed.

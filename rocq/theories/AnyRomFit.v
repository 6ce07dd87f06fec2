(* AnyRomFit.v -- what fit() of a ROM made of any parts hands to the model, and what it leaves behind if it raises. *)
From Coq Require Import ZArith Lia.
From Verif Require Import LinAlg MatAlg AffProofs RomParts RomProofs RomFit AnyRomProofs.
From Verif Require Import SpecAnyRom.
#[local] Open Scope nat_scope.
#[local] Open Scope list_scope.

Section F.
  Context (T : tclass) (B : bclass) {A : Type} (D : mclass A).
  Notation rom := (arom T B D).
  Implicit Types r : rom.

  Lemma tt_frame r ft Qs Zs : let r2 := fst (a_train_transform T B D r ft Qs Zs) in
    a_lift r2 = a_lift r /\ a_ddt r2 = a_ddt r /\ a_basis r2 = a_basis r /\ a_model r2 = a_model r /\
    (a_tf r2 = a_tf r \/ (ft = true /\ exists t H, a_tf r = Some t /\ hstack_arr Qs = Ok H /\ a_tf r2 = Some (fst (ct_fit T t H)))).
  Proof. unfold a_train_transform. destruct (a_tf r) as [t|] eqn:Et; cbn; [|repeat split; auto]. destruct ft; [|repeat split; auto].
    destruct (hstack_arr Qs) as [H|] eqn:EH; [|repeat split; auto]. destruct (ct_fit T t H) as [t' x] eqn:EF. cbn. repeat (split; auto). right. split; auto. exists t, H. rewrite EF. auto. Qed.
  Lemma tc_frame r fb Qs Zs : let r2 := fst (a_train_compress T B D r fb Qs Zs) in
    a_lift r2 = a_lift r /\ a_ddt r2 = a_ddt r /\ a_tf r2 = a_tf r /\ a_model r2 = a_model r /\
    (a_basis r2 = a_basis r \/ (fb = true /\ exists b H, a_basis r = Some b /\ hstack_arr Qs = Ok H /\ a_basis r2 = Some (fst (cb_fit B b H)))).
  Proof. unfold a_train_compress. destruct (a_basis r) as [t|] eqn:Et; cbn; [|repeat split; auto]. destruct fb; [|repeat split; auto].
    destruct (hstack_arr Qs) as [H|] eqn:EH; [|repeat split; auto]. destruct (cb_fit B t H) as [t' x] eqn:EF. cbn. repeat (split; auto). right. split; auto. exists t, H. rewrite EF. auto. Qed.
  Lemma tt_ok r ft Qs Zs r2 q2 z2 : (forall l, Zs = Some l -> length l = length Qs) -> a_train_transform T B D r ft Qs Zs = (r2, Ok (q2, z2)) ->
    length q2 = length Qs /\ (forall i, i < length Qs -> via (a_tf r2) (ct_transform T) (nth i Qs dfl) (nth i q2 dfl)) /\
    rel_opt (length Qs) Zs z2 (fun i z z' => via (a_tf r2) (if cm_cont D then ct_ddts T else ct_transform T) z z') /\
    match a_tf r, a_tf r2 with
    | None, None => True
    | Some t, Some t' => if ft then exists H, hstack_arr Qs = Ok H /\ ct_fit T t H = (t', Ok tt) else t' = t
    | _, _ => False
    end.
  Proof. intros HL E. unfold a_train_transform in E. destruct (a_tf r) as [t|] eqn:Et.
    2:{ injection E as <- <- <-. rewrite Et. cbn [via]. repeat split; auto. now apply rel_opt_id. }
    destruct (if ft then _ else (t, Ok tt)) as [t' x] eqn:E1. injection E as <- E. cbn [with_tf a_tf via]. destruct x as [[]|]; [|discriminate]. cbn [bind] in E.
    destruct (mapM (ct_transform T t') Qs) as [qs|] eqn:E2; [|discriminate]. cbn [bind] in E.
    destruct (opt_map _ Zs) as [zs|] eqn:E3; [|discriminate]. injection E as <- <-. destruct (mapM_index _ dfl dfl _ _ E2) as [L1 H1]. repeat split; auto.
    - pose proof (opt_mapM_ok (length Qs) _ _ _ HL E3) as H. destruct Zs, zs; cbn [rel_opt] in *; auto. destruct (cm_cont D); auto.
    - destruct ft; [|now injection E1]. destruct (hstack_arr Qs) as [H|]; [|discriminate]. eauto. Qed.
  Lemma tc_ok r fb Qs Zs r2 q2 z2 : (forall l, Zs = Some l -> length l = length Qs) -> a_train_compress T B D r fb Qs Zs = (r2, Ok (q2, z2)) ->
    length q2 = length Qs /\ (forall i, i < length Qs -> via (a_basis r2) (cb_compress B) (nth i Qs dfl) (nth i q2 dfl)) /\
    rel_opt (length Qs) Zs z2 (fun i z z' => via (a_basis r2) (cb_compress B) z z') /\
    match a_basis r, a_basis r2 with
    | None, None => True
    | Some b, Some b' => if fb then exists H, hstack_arr Qs = Ok H /\ cb_fit B b H = (b', Ok tt) else b' = b
    | _, _ => False
    end.
  Proof. intros HL E. unfold a_train_compress in E. destruct (a_basis r) as [t|] eqn:Et.
    2:{ injection E as <- <- <-. rewrite Et. cbn [via]. repeat split; auto. now apply rel_opt_id. }
    destruct (if fb then _ else (t, Ok tt)) as [t' x] eqn:E1. injection E as <- E. cbn [with_basis a_basis via]. destruct x as [[]|]; [|discriminate]. cbn [bind] in E.
    destruct (mapM (cb_compress B t') Qs) as [qs|] eqn:E2; [|discriminate]. cbn [bind] in E.
    destruct (opt_map _ Zs) as [zs|] eqn:E3; [|discriminate]. injection E as <- <-. destruct (mapM_index _ dfl dfl _ _ E2) as [L1 H1]. repeat split; auto.
    - exact (opt_mapM_ok (length Qs) _ _ _ HL E3).
    - destruct fb; [|now injection E1]. destruct (hstack_arr Qs) as [H|]; [|discriminate]. eauto. Qed.

  (* all stages went well *)
  Lemma stages_ok r ft fb Qs Zs q1 z1 r2 q2 z2 r3 q3 z3 : same_length Qs Zs -> train_lift (lift_part T B D r) (cm_cont D) Qs Zs = Ok (q1, z1) ->
    a_train_transform T B D r ft q1 z1 = (r2, Ok (q2, z2)) -> a_train_compress T B D r2 fb q2 z2 = (r3, Ok (q3, z3)) ->
    afitted ft fb Qs r r3 /\ a_model r3 = a_model r /\ length q3 = length Qs /\ (forall l, z3 = Some l -> length l = length Qs) /\ (z3 = None <-> Zs = None) /\
    forall i, i < length Qs -> aencode1 T B D r3 (nth i Qs dfl) = Ok (nth i q3 dfl) /\ (forall z, nth_opt Zs i = Some z -> aencode T B D r3 (nth i Qs dfl) (Some z) = Ok (nth i q3 dfl, nth_opt z3 i)).
  Proof. intros HL E1 E2 E3. destruct (train_lift_ok _ _ Qs Zs q1 z1 HL E1) as (L1 & V1 & R1). cbn [lift_part rp_lift] in V1, R1.
    pose proof (rel_opt_len _ _ _ _ R1) as LZ1. destruct (tt_ok r ft q1 z1 r2 q2 z2) as (L2 & V2 & R2 & F2); auto. { intros l El. rewrite L1. auto. }
    pose proof (rel_opt_len _ _ _ _ R2) as LZ2. destruct (tc_ok r2 fb q2 z2 r3 q3 z3) as (L3 & V3 & R3 & F3); auto. { intros l El. rewrite L2. auto. }
    pose proof (rel_opt_len _ _ _ _ R3) as LZ3. rewrite L1 in *. rewrite L2 in *. rewrite L3 in *.
    assert (T1 := tt_frame r ft q1 z1). rewrite E2 in T1. cbn in T1. destruct T1 as (A1 & A2 & A3 & A4 & _).
    assert (T2 := tc_frame r2 fb q2 z2). rewrite E3 in T2. cbn in T2. destruct T2 as (B1 & B2 & B3 & B4 & _).
    split; [|split; [congruence|split; auto; split; [auto|split]]].
    - split; [congruence|]. split; [congruence|]. exists q1, q2. rewrite B3, A3 in *. split; [|split; [|split]].
      + apply (index_Forall2 _ dfl dfl); auto.
      + apply (index_Forall2 _ dfl dfl); [congruence|]. rewrite L1. auto.
      + exact F2.
      + exact F3.
    - destruct Zs, z1, z2, z3; cbn in *; try tauto; split; congruence.
    - intros i Hi. specialize (V1 i Hi). specialize (V2 i Hi). specialize (V3 i Hi).
      assert (EN : aencode1 T B D r3 (nth i Qs dfl) = Ok (nth i q3 dfl)). { apply any_encode. exists (nth i q1 dfl), (nth i q2 dfl). rewrite B1, A1, B3. auto. }
      split; auto. intros z Hz. destruct Zs as [zl0|]; [|discriminate]. destruct z1 as [zl1|], z2 as [zl2|], z3 as [zl3|]; cbn [rel_opt] in *; try tauto. cbn [nth_opt option_map] in *. injection Hz as <-.
      destruct R1 as [_ R1], R2 as [_ R2], R3 as [_ R3]. specialize (R1 i Hi). specialize (R2 i Hi). specialize (R3 i Hi). apply any_encode_lhs. eexists _, _, _. rewrite B1, A1, B3. repeat (split; eauto). Qed.
  (* the last stage *)
  Lemma lhs_ok r ft fb Qs Zs Us q1 z1 r2 q2 z2 r3 q3 z3 es ds us : same_length Qs Zs -> same_length Qs Us -> train_lift (lift_part T B D r) (cm_cont D) Qs Zs = Ok (q1, z1) ->
    a_train_transform T B D r ft q1 z1 = (r2, Ok (q2, z2)) -> a_train_compress T B D r2 fb q2 z2 = (r3, Ok (q3, z3)) -> train_lhs (a_ddt r3) (cm_cont D) q3 z3 Us = Ok (es, ds, us) ->
    acontributions r3 Qs Zs Us es ds us.
  Proof. intros HZ HU E1 E2 E3 E4. destruct (stages_ok r ft fb Qs Zs q1 z1 r2 q2 z2 r3 q3 z3 HZ E1 E2 E3) as (F & _ & L & LZ & NZ & HE). clear E1 E2 E3. unfold acontributions.
    destruct z3 as [zl|].
    - cbn [train_lhs] in E4. injection E4 as <- <- <-. specialize (LZ zl eq_refl). assert (Zs <> None) by (intros EZ; apply NZ in EZ; discriminate). destruct Zs as [zs|]; [|congruence].
      split; auto. split; auto. split; [tauto|]. split; auto. intros i Hi. destruct (HE i Hi) as (_ & HE'). cbn [nth_opt option_map] in *. unfold acontributes. auto.
    - assert (Zs = None) by now apply NZ. subst Zs. cbn [nth_opt option_map] in *. unfold acontributes, train_lhs in *. destruct (cm_cont D).
      + destruct (a_ddt r3) as [est|] eqn:ED; [|discriminate]. destruct Us as [ul|].
        * destruct (mapM _ (combine q3 ul)) as [l|] eqn:Em; [|discriminate]. cbn [bind] in E4. destruct (length l =? 0); [discriminate|]. injection E4 as <- <- <-.
          destruct (mapM_index _ (dfl, dfl) (([], []), dfl) _ _ Em) as [Lm Hm]. specialize (HU ul eq_refl). rewrite combine_length in *. rewrite !map_length.
          split; [lia|]. split; [lia|]. split; [split; discriminate|]. split. { intros l0 E0. injection E0 as <-. rewrite map_length. lia. }
          intros i Hi. cbn [nth_opt option_map]. exists (nth i q3 dfl). split; [apply HE; auto|]. specialize (Hm i ltac:(lia)). rewrite combine_nth in Hm by lia. cbn [fst snd] in Hm.
          destruct (est (nth i q3 dfl) (Some (nth i ul dfl))) as [[[E0 F0] w]|] eqn:Ee; [|discriminate]. cbn [bind snd fst] in Hm. destruct w as [w|]; [|discriminate]. injection Hm as Hm.
          exists est, E0, F0, (Some w). split; auto. split; auto.
          rewrite (nth_map_in _ l i dfl (([], []), dfl)) by lia. rewrite (nth_map_in _ l i dfl (([], []), dfl)) by lia. rewrite (nth_map_in _ l i dfl (([], []), dfl)) by lia.
          rewrite <- Hm. cbn. repeat split; auto. discriminate.
        * destruct (mapM _ q3) as [l|] eqn:Em; [|discriminate]. cbn [bind] in E4. destruct (length l =? 0); [discriminate|]. injection E4 as <- <- <-.
          destruct (mapM_index _ dfl ([], [], None) _ _ Em) as [Lm Hm]. rewrite !map_length.
          split; [lia|]. split; [lia|]. split; [tauto|]. split. { intros l0 E0. discriminate. }
          intros i Hi. cbn [nth_opt option_map]. exists (nth i q3 dfl). split; [apply HE; auto|]. specialize (Hm i ltac:(lia)).
          rewrite (nth_map_in _ l i dfl ([], [], None)) by lia. rewrite (nth_map_in _ l i dfl ([], [], None)) by lia.
          destruct (nth i l ([], [], None)) as [[E0 F0] w]. exists est, E0, F0, w. cbn. auto.
      + destruct (mapM drop_first q3) as [zs|] eqn:Ef; [|discriminate]. cbn [bind] in E4. destruct (mapM drop_last q3) as [qs|] eqn:El; [|discriminate]. cbn [bind] in E4. injection E4 as <- <- <-.
        destruct (mapM_index _ dfl dfl _ _ Ef) as [L1 H1]. destruct (mapM_index _ dfl dfl _ _ El) as [L2 H2].
        split; [lia|]. split; [lia|]. split. { destruct Us; cbn; split; congruence || tauto. }
        split. { intros l0 E0. destruct Us as [ul|]; [|discriminate]. cbn in E0. injection E0 as <-. rewrite map2_length. specialize (HU ul eq_refl). lia. }
        intros i Hi. cbn [nth_opt option_map]. exists (nth i q3 dfl). split; [apply HE; auto|]. specialize (H1 i ltac:(lia)). specialize (H2 i ltac:(lia)).
        destruct (nth i q3 dfl) as [v|E0] eqn:En; [discriminate|]. cbn [drop_first drop_last] in H1, H2. injection H1 as H1. injection H2 as H2. exists E0. rewrite <- H1, <- H2. repeat split; auto.
        destruct Us as [ul|]; cbn [option_map nth_opt]; [|reflexivity]. specialize (HU ul eq_refl). rewrite (map2_nth _ qs ul i dfl dfl dfl) by lia. rewrite <- H2. reflexivity. Qed.

  Lemma lift_via r Qs Zs q1 z1 : same_length Qs Zs -> train_lift (lift_part T B D r) (cm_cont D) Qs Zs = Ok (q1, z1) -> Forall2 (via (a_lift r) lf_lift) Qs q1 /\ (forall l, z1 = Some l -> length l = length q1).
  Proof. intros HL E1. destruct (train_lift_ok _ _ Qs Zs q1 z1 HL E1) as (L1 & V1 & R1). split; [apply (index_Forall2 _ dfl dfl); auto|]. intros l El. rewrite L1. exact (rel_opt_len _ _ _ _ R1 l El). Qed.
  Lemma enc_model r d a z : aencode T B D (with_model T B D r d) a z = aencode T B D r a z.
  Proof. rewrite !aencode_eq. reflexivity. Qed.
  Lemma contrib_model r d Qs Zs Us es ds us : acontributions r Qs Zs Us es ds us -> acontributions (with_model T B D r d) Qs Zs Us es ds us.
  Proof. unfold acontributions, acontributes, aencode1. intros (H1 & H2 & H3 & H4 & H5). repeat (split; [assumption|]). intros i Hi. specialize (H5 i Hi). destruct (nth_opt Zs i); rewrite enc_model; exact H5. Qed.
  Theorem fit_model_outcome (call : fit_call D) r ft fb Qs Zs Us r' x : same_length Qs Zs -> same_length Qs Us -> a_fit_model T B D call r ft fb Qs Zs Us = (r', x) ->
    match x with
    | Ok _ => afitted ft fb Qs r r' /\ exists es ds us, acontributions r' Qs Zs Us es ds us /\ call (a_model r) es ds us = (a_model r', Ok tt)
    | Err e => left_behind call ft fb Qs Zs Us e r r'
    end.
  Proof. intros HZ HU E. unfold a_fit_model, a_process in E. destruct (train_lift _ _ Qs Zs) as [[q1 z1]|e] eqn:E1.
    2:{ cbn in E. injection E as <- <-. repeat (split; auto); left; auto. }
    destruct (lift_via r Qs Zs q1 z1 HZ E1) as (HV1 & LZ1).
    assert (T1 := tt_frame r ft q1 z1). destruct (a_train_transform T B D r ft q1 z1) as [r2 [[q2 z2]|e]] eqn:E2; cbn [fst] in T1; cbn [sbind fst snd] in E; unfold sbind in E; cbn [fst snd] in E.
    2:{ injection E as <- <-. destruct T1 as (A1 & A2 & A3 & A4 & A5). split; auto. split; auto. split; [|split; left; auto].
        destruct A5 as [A5|(-> & t & H & K1 & K2 & K3)]; [left; auto|right]. split; auto. exists t, q1, H. auto. }
    destruct T1 as (A1 & A2 & A3 & A4 & A5).
    assert (HT : tf_left ft Qs r r2). { destruct A5 as [A5|(-> & t & H & K1 & K2 & K3)]; [left; auto|right]. split; auto. exists t, q1, H. auto. }
    destruct (tt_ok r ft q1 z1 r2 q2 z2) as (L2 & V2 & R2 & F2); auto.
    assert (HV2 : Forall2 (via (a_tf r2) (ct_transform T)) q1 q2) by (apply (index_Forall2 _ dfl dfl); auto).
    assert (T2 := tc_frame r2 fb q2 z2). destruct (a_train_compress T B D r2 fb q2 z2) as [r3 [[q3 z3]|e]] eqn:E3; cbn [fst] in T2; cbn [fst snd] in E.
    all: destruct T2 as (B1 & B2 & B3 & B4 & B5).
    all: assert (HT' : tf_left ft Qs r r3) by (unfold tf_left in *; rewrite B3; auto).
    all: assert (HB : basis_left ft fb Qs r r3).
    1,3: (destruct B5 as [B5|(-> & b & H & K1 & K2 & K3)]; [left; congruence|right]; split; auto; exists b, q1, q2, H; rewrite <- A3; split; auto; split; auto; split; [rewrite B3; auto|]; split; [|auto];
          intros t Ht Hf; rewrite Ht in F2; destruct (a_tf r2) as [t2|]; [|contradiction]; rewrite Hf in F2; destruct F2 as (H0 & G1 & G2); exists H0; rewrite G2; auto).
    2:{ injection E as <- <-. split; [congruence|]. split; [congruence|]. split; auto. split; auto. left. congruence. }
    destruct (stages_ok r ft fb Qs Zs q1 z1 r2 q2 z2 r3 q3 z3 HZ E1 E2 E3) as (F & HM & _).
    destruct (train_lhs (a_ddt r3) (cm_cont D) q3 z3 Us) as [[[es ds] us]|e] eqn:E4; cbn [fst snd] in E.
    2:{ injection E as <- <-. split; [congruence|]. split; [congruence|]. split; auto. split; auto. left. congruence. }
    assert (HC := lhs_ok r ft fb Qs Zs Us q1 z1 r2 q2 z2 r3 q3 z3 es ds us HZ HU E1 E2 E3 E4).
    destruct (call (a_model r3) es ds us) as [d y] eqn:EC. injection E as <- <-. rewrite HM in EC.
    destruct y as [[]|e].
    - split; [exact F|]. exists es, ds, us. split; [apply contrib_model; exact HC|exact EC].
    - split; [cbn; congruence|]. split; [cbn; congruence|]. split; [exact HT'|]. split; [exact HB|]. right. split; [exact F|]. exists es, ds, us. split; [apply contrib_model; exact HC|exact EC]. Qed.

  Lemma fix_single_ok X Qs Zs Us : trajectories_of X Qs Zs Us -> fix_single X = Ok (Qs, Zs, Us) \/ exists e, fix_single X = Err e.
  Proof. destruct X as [Q Z U|Qs' Zs' Us']; cbn; intros (-> & -> & ->). - destruct (nrows Q =? 0); eauto. - destruct Qs' as [|[v|m] Qs']; eauto. Qed.
  (* ROM.fit() *)
  Theorem any_fit f r X ft fb r' Qs Zs Us : trajectories_of X Qs Zs Us -> same_length Qs Zs -> same_length Qs Us -> arom_fit T B D f r X ft fb = (r', Ok tt) ->
    afitted ft fb Qs r r' /\ exists es ds us Q L U, acontributions r' Qs Zs Us es ds us /\ hstack_arr es = Ok Q /\ hstack_arr ds = Ok L /\ hstack_opt us = Ok U /\ f (a_model r) Q L U = (a_model r', Ok tt).
  Proof. intros HT HZ HU E. unfold arom_fit in E. destruct (check_fit_args _ _ _ _ _) as [[]|]; [|discriminate]. cbn [bind] in E. destruct (fix_single_ok X Qs Zs Us HT) as [E1|(e & E1)]; rewrite E1 in E; [|discriminate].
    apply fit_model_outcome in E; auto. destruct E as (F & es & ds & us & HC & E). split; auto. unfold stacked in E. destruct (hstack_opt us) as [U|] eqn:EU; [|discriminate]. cbn [bind] in E. destruct (hstack_arr es) as [Q|] eqn:EQ; [|discriminate]. cbn [bind] in E. destruct (hstack_arr ds) as [L|] eqn:EL; [|discriminate]. cbn [bind] in E.
    exists es, ds, us, Q, L, U. auto. Qed.
  Theorem any_fit_raises f r X ft fb r' Qs Zs Us e : trajectories_of X Qs Zs Us -> same_length Qs Zs -> same_length Qs Us -> arom_fit T B D f r X ft fb = (r', Err e) ->
    left_behind (stacked D f) ft fb Qs Zs Us e r r'.
  Proof. intros HT HZ HU E. unfold arom_fit in E. assert (HN : left_behind (stacked D f) ft fb Qs Zs Us e r r) by (repeat (split; auto); left; auto). destruct (check_fit_args _ _ _ _ _) as [[]|]; [|injection E as <- <-; auto]. cbn [bind] in E.
    destruct (fix_single_ok X Qs Zs Us HT) as [E1|(e' & E1)]; rewrite E1 in E; [|injection E as <- <-; auto]. apply fit_model_outcome in E; auto. Qed.
  Theorem any_fit_refuses f r X ft fb : (cm_cont D = true /\ fst (train_args X) = false /\ a_ddt r = None) \/ (cm_hasin D (a_model r) = true /\ snd (train_args X) = false) -> arom_fit T B D f r X ft fb = (r, Err ValueError).
  Proof. intros H. unfold arom_fit, check_fit_args. destruct H as [(-> & -> & ->)|(-> & ->)]; cbn; auto. destruct (negb (fst (train_args X)) && cm_cont D && negb (given (a_ddt r))); auto. Qed.
  (* ParametricROM.fit() *)
  Theorem any_pfit call r Qs Zs Us ft fb r' : same_length Qs Zs -> same_length Qs Us -> aprom_fit T B D call r Qs Zs Us ft fb = (r', Ok tt) ->
    afitted ft fb Qs r r' /\ exists es ds us, acontributions r' Qs Zs Us es ds us /\ call (a_model r) es ds us = (a_model r', Ok tt).
  Proof. intros HZ HU E. unfold aprom_fit in E. destruct (check_fit_args _ _ _ _ _) as [[]|]; [|discriminate]. apply fit_model_outcome in E; auto. Qed.
  Theorem any_pfit_raises call r Qs Zs Us ft fb r' e : same_length Qs Zs -> same_length Qs Us -> aprom_fit T B D call r Qs Zs Us ft fb = (r', Err e) -> left_behind call ft fb Qs Zs Us e r r'.
  Proof. intros HZ HU E. unfold aprom_fit in E. destruct (check_fit_args _ _ _ _ _) as [[]|]; [|injection E as <- <-; repeat (split; auto); left; auto]. apply fit_model_outcome in E; auto. Qed.
  (* a fit() that is asked to fit neither transformer nor basis and raises leaves all encodings and decodings as they were; if
     the model's fit() leaves its object alone when it raises, nothing at all has changed *)
  Theorem any_fit_no_refit f r X r' Qs Zs Us e : trajectories_of X Qs Zs Us -> same_length Qs Zs -> same_length Qs Us -> arom_fit T B D f r X false false = (r', Err e) ->
    a_lift r' = a_lift r /\ a_tf r' = a_tf r /\ a_basis r' = a_basis r /\ a_ddt r' = a_ddt r /\ ((forall Q L U d y, f (a_model r) Q L U = (d, Err y) -> d = a_model r) -> r' = r).
  Proof. intros HT HZ HU E. apply (any_fit_raises _ _ _ _ _ _ Qs Zs Us) in E; auto. destruct E as (H1 & H2 & H3 & H4 & H5). destruct H3 as [H3|(K & _)]; [|discriminate]. destruct H4 as [H4|(K & _)]; [|discriminate]. repeat (split; auto). intros HF.
    assert (H6 : a_model r' = a_model r). { destruct H5 as [H5|(_ & es & ds & us & _ & H5)]; auto. unfold stacked in H5. destruct (do U <- hstack_opt us; _) as [[[Q L] U]|]; [apply HF in H5; auto|injection H5; auto]. }
    destruct r, r'; cbn in *; subst; auto. Qed.
End F.

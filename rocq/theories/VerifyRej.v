(* VerifyRej.v -- the aliasing mistakes verify() of transformers rejects, for arbitrary methods. *)
From Verif Require Import VerifyProofs.
From Verif Require Import SpecVerify.
#[local] Open Scope nat_scope.

Lemma bind_ok {A B} (m : H A) (k : A -> H B) h h' b : hbind m k h = (h', Ok b) -> exists h1 a, m h = (h1, Ok a) /\ k a h1 = (h', Ok b).
Proof. unfold hbind. destruct (m h) as [h1 [a|e]]; [eauto|discriminate]. Qed.
Lemma assert_ok b h h' u : hassert b h = (h', Ok u) -> b = true.
Proof. destruct b; auto. discriminate. Qed.
Lemma assert_heap b h h' u : hassert b h = (h', Ok u) -> h' = h.
Proof. destruct b; cbn; unfold hret; [intros E; now injection E|discriminate]. Qed.
Lemma snd_ok m h h' y : hsnd m h = (h', Ok y) -> m h = (h', Ok (tt, y)).
Proof. unfold hsnd. intros E. apply bind_ok in E. destruct E as (h1 & [[] z] & E & E2). cbn in E2. unfold hret in E2. congruence. Qed.
Lemma is_iff x y : harr_is x y = true <-> x = y.
Proof.
  destruct x, y; cbn; split; try discriminate; try congruence; try (destruct (list_eq_dec _ _ _); congruence).
Qed.
Lemma new_arr n A h h' x : is_mat n 20 A -> hnew (M A) h = (h', Ok x) -> test_array n h' x /\ (forall z, wf h z -> wf h' z).
Proof.
  intros HA E. destruct (new_step h (M A)) as (h2 & y & E2 & R & W & U & _). rewrite E in E2. injection E2 as <- <-. split; [split; eauto|]. intros z Hz. apply U; auto.
Qed.
Lemma copy_arr n y h h' x : test_array n h y -> hcopy y h = (h', Ok x) -> test_array n h' x /\ (forall z, wf h z -> wf h' z).
Proof. intros (_ & A & E & HA). unfold hcopy, hread. rewrite E. now apply new_arr. Qed.
Lemma keep n h h' x : test_array n h x -> (forall z, wf h z -> wf h' z) -> test_array n h' x.
Proof. intros (W & A & E & HA) K. split; auto. destruct (rd_shape h h' x A E) as (B & EB & HB). eauto. Qed.
Lemma free_snd op fl x h h' y : no_free op -> wf h x -> hsnd (op fl x) h = (h', Ok y) -> forall z, wf h z -> wf h' z.
Proof. intros F W E. apply snd_ok in E. eapply F; eauto. Qed.
Ltac same_heap E := let K := fresh in pose proof (assert_heap _ _ _ _ E) as K; rewrite K in *; clear K.
(* what was seen during a call that verify() accepted *)
Lemma accepted_calls o n X tol h h' : vo_dim o = Some n -> 0 < n -> is_mat n 20 (X n) ->
  no_free (vo_transform o) -> no_free (vo_inverse o None) -> (forall dd0, vo_ddts o = Some dd0 -> no_free dd0) -> (forall x y h1 h2 r, wf h1 x -> wf h1 y -> vo_locs o x y h1 = (h2, r) -> forall z, wf h1 z -> wf h2 z) ->
  h_verify o X tol h = (h', Ok tt) ->
  (exists h1 h2 x y, test_array n h1 x /\ vo_transform o false x h1 = (h2, Ok (tt, y)) /\ y <> x /\ shape_eqb (rd h2 y) (rd h2 x) = true) /\
  (exists h1 h2 x, test_array n h1 x /\ vo_transform o true x h1 = (h2, Ok (tt, x))) /\
  (exists h1 h2 x y, test_array n h1 x /\ vo_inverse o None false x h1 = (h2, Ok (tt, y)) /\ y <> x) /\
  (exists h1 h2 x, test_array n h1 x /\ vo_inverse o None true x h1 = (h2, Ok (tt, x))) /\
  (forall dd0, vo_ddts o = Some dd0 -> (exists h1 h2 x y, test_array n h1 x /\ dd0 false x h1 = (h2, Ok (tt, y)) /\ y <> x) /\ (exists h1 h2 x, test_array n h1 x /\ dd0 true x h1 = (h2, Ok (tt, x)))).
Proof.
  intros Hd Hn HX F1 F2 F3 F4. unfold h_verify. rewrite Hd. intros E.
  apply bind_ok in E. destruct E as (h0 & x & E0 & E). destruct (new_arr n _ _ _ _ HX E0) as [T0 K0].
  apply bind_ok in E. destruct E as (h1 & y0 & E1 & E). unfold hread in E. apply bind_ok in E. destruct E as (h2 & [] & E2 & E).
  same_heap E2. apply assert_ok in E2. pose proof (keep _ _ h1 _ T0 (free_snd _ _ _ _ _ _ F1 (proj1 T0) E1)) as T1.
  apply bind_ok in E. destruct E as (h2' & [] & E3 & E). same_heap E3. apply assert_ok in E3. apply Bool.negb_true_iff in E3. assert (N1 : y0 <> x) by (intros K; apply is_iff in K; congruence).
  split. { exists h0, h1, x, y0. split; auto. split; [apply snd_ok; auto|]. auto. }
  unfold verify_rest in E. apply bind_ok in E. destruct E as (h3 & c & C3 & E). destruct (copy_arr n _ _ _ _ T1 C3) as [T3 K3]. pose proof (keep _ _ h3 _ T1 K3) as X3.
  apply bind_ok in E. destruct E as (h4 & y & E4 & E). pose proof (free_snd _ _ _ _ _ _ F1 (proj1 T3) E4) as K4.
  apply bind_ok in E. destruct E as (h5 & [] & E5 & E). same_heap E5. apply assert_ok in E5. apply is_iff in E5. subst y.
  split. { exists h3, h4, c. split; auto. apply snd_ok; auto. }
  pose proof (keep _ _ h4 _ T3 K4) as T4. pose proof (keep _ _ h4 _ X3 K4) as X4.
  apply bind_ok in E. destruct E as (h6 & z0 & E6 & E). pose proof (free_snd _ _ _ _ _ _ F2 (proj1 T4) E6) as K6. unfold hread at 1 2 in E. apply bind_ok in E. destruct E as (h7 & [] & E7 & E). same_heap E7.
  apply bind_ok in E. destruct E as (h8 & [] & E8 & E). same_heap E8.
  apply assert_ok, Bool.negb_true_iff in E8. split. { exists h4, h6, c, z0. split; auto. split; [apply snd_ok; auto|]. intros K. apply is_iff in K. congruence. }
  pose proof (keep _ _ h6 _ T4 K6) as T6. pose proof (keep _ _ h6 _ X4 K6) as X6.
  apply bind_ok in E. destruct E as (h9 & yc & E9 & E). destruct (copy_arr n _ _ _ _ T6 E9) as [T9 K9]. pose proof (keep _ _ h9 _ X6 K9) as X9.
  apply bind_ok in E. destruct E as (h10 & z & E10 & E). pose proof (free_snd _ _ _ _ _ _ F2 (proj1 T9) E10) as K10. apply bind_ok in E. destruct E as (h11 & [] & E11 & E). same_heap E11. apply assert_ok, is_iff in E11. subst z.
  split. { exists h9, h10, yc. split; auto. apply snd_ok; auto. }
  pose proof (keep _ _ h10 _ X9 K10) as X10. pose proof (keep _ _ h10 _ (keep _ _ h9 _ T6 K9) K10) as T10.
  intros dd0 Ed. rewrite Ed in E. specialize (F3 _ Ed). unfold hread at 1 2 in E. apply bind_ok in E. destruct E as (h12 & [] & E12 & E). same_heap E12. apply bind_ok in E. destruct E as (h13 & [] & E13 & E).
  pose proof (keep _ _ h13 _ X10 (F4 _ _ _ _ _ (proj1 X10) (proj1 T10) E13)) as X13.
  unfold verify_ddts in E. apply bind_ok in E. destruct E as (h14 & w & E14 & E). pose proof (keep _ _ h14 _ X13 (free_snd _ _ _ _ _ _ F3 (proj1 X13) E14)) as X14. destruct X14 as (_ & A & EA & HA).
  unfold hread at 1 in E. rewrite EA, (ddt_ok n) in E by auto. apply bind_ok in E. destruct E as (h15 & DX & E15 & E). unfold hlift in E15. injection E15 as <- <-.
  apply bind_ok in E. destruct E as (h16 & dx & E16 & E). destruct (new_arr n _ _ _ _ (dd_mat n _ HA) E16) as [T16 _].
  apply bind_ok in E. destruct E as (h17 & e & E17 & E). pose proof (keep _ _ h17 _ T16 (free_snd _ _ _ _ _ _ F3 (proj1 T16) E17)) as T17. apply bind_ok in E. destruct E as (h18 & [] & E18 & E). same_heap E18. apply assert_ok, Bool.negb_true_iff in E18.
  split. { exists h16, h17, dx, e. split; auto. split; [apply snd_ok; auto|]. intros K. apply is_iff in K. congruence. }
  unfold hread at 1 in E. apply bind_ok in E. destruct E as (h19 & est & E19 & E). assert (h19 = h17) as -> by (unfold hlift in E19; congruence). unfold hread at 1 in E. apply bind_ok in E. destruct E as (h20 & [] & E20 & E). same_heap E20.
  apply bind_ok in E. destruct E as (h21 & e2 & E21 & E).
  apply assert_ok, is_iff in E. subst e2. exists h17, h21, dx. split; auto. apply snd_ok; auto.
Qed.
(* a class one of whose methods ignores inplace=True, or inplace=False *)
Lemma alias_rejected o n X tol h : vo_dim o = Some n -> 0 < n -> is_mat n 20 (X n) ->
  no_free (vo_transform o) -> no_free (vo_inverse o None) -> (forall dd0, vo_ddts o = Some dd0 -> no_free dd0) -> (forall x y h1 h2 r, wf h1 x -> wf h1 y -> vo_locs o x y h1 = (h2, r) -> forall z, wf h1 z -> wf h2 z) ->
  (exists op, (op = vo_transform o \/ op = vo_inverse o None \/ vo_ddts o = Some op) /\
     ((forall h1 h2 x y, test_array n h1 x -> op true x h1 = (h2, Ok (tt, y)) -> y <> x) \/ (forall h1 h2 x y, test_array n h1 x -> op false x h1 = (h2, Ok (tt, y)) -> y = x))) ->
  snd (h_verify o X tol h) <> Ok tt.
Proof.
  intros Hd Hn HX F1 F2 F3 F4 (op & C0 & C) E. destruct (h_verify o X tol h) as [h' r] eqn:EV. cbn in E. subst r.
  destruct (accepted_calls o n X tol h h' Hd Hn HX F1 F2 F3 F4 EV) as ((a1 & a2 & a3 & a4 & A0 & A1 & A2 & _) & (b1 & b2 & b3 & B0 & B) & (c1 & c2 & c3 & c4 & C1 & C2 & C3) & (d1 & d2 & d3 & D0 & D) & F).
  destruct C0 as [->|[->|Ed]].
  - destruct C as [C|C]; [exact (C _ _ _ _ B0 B eq_refl)|exact (A2 (C _ _ _ _ A0 A1))].
  - destruct C as [C|C]; [exact (C _ _ _ _ D0 D eq_refl)|exact (C3 (C _ _ _ _ C1 C2))].
  - destruct (F op Ed) as [(e1 & e2 & e3 & e4 & E1 & E2 & E3) (f1 & f2 & f3 & F5 & F6)]. destruct C as [C|C]; [exact (C _ _ _ _ F5 F6 eq_refl)|exact (E3 (C _ _ _ _ E1 E2))].
Qed.

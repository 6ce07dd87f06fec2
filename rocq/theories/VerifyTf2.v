(* VerifyTf2.v -- correct transformers that verify() rejects, and a wrong one that it accepts. *)
From Coq Require Import ZArith Lra Psatz.
From Verif Require Import MatAlg LinAlg PreProofs PreLocs PreFinal PreHeapProofs GalProofs VerifyProofs VerifyTf.
From Verif Require Import SpecVerify.
#[local] Open Scope nat_scope.

Lemma untrained rx rl tol t path h : tf_dim t = None -> (forall l, t <> TMulti l) -> tf_verify rx rl tol t path h = (h, Err AttributeError).
Proof. intros E N. destruct t; cbn [tf_verify]; try (exfalso; eapply N; reflexivity; fail); unfold h_verify, tf_obj; cbn [vo_dim]; rewrite E; reflexivity. Qed.
(* the exception of _verify_locs is the exception of verify() *)
Lemma locs_fail n t e rx rl tol path h : (forall l, t <> TMulti l) -> 0 < n -> trained n t -> is_mat n 20 (rx path n) ->
  (forall B, is_mat n 20 B -> inverse_transform t (Some (zlocs (rl path n))) (asel (rl path n) (M B)) = Err e) ->
  exists h', tf_verify rx rl tol t path h = (h', Err e) /\ unchanged h h'.
Proof.
  intros N Hn Ht HX HE. destruct (C08_all t) as (R1 & R2 & R3 & _).
  assert (EL : vo_locs (tf_obj t (rl path)) = h_locs (vo_inverse (tf_obj t (rl path))) (rl path)) by (unfold tf_obj; cbn; destruct t; auto; exfalso; eapply N; reflexivity).
  destruct (user_sim (tf_obj t (rl path)) n (transform t) (fun l => inverse_transform t l) (rl path) (rx path) tol (trained_dim t n Ht) Hn HX R1 R3 EL (Some (transform_ddts t)) h R2) as (h' & E & U).
  exists h'. split; auto. replace (tf_verify rx rl tol t path) with (h_verify (tf_obj t (rl path)) (rx path) tol) by (destruct t; auto; exfalso; eapply N; reflexivity).
  rewrite E. f_equal. destruct (trained_inverts n t 20 (rx path n) Ht HX) as (B & E1 & HB & E2). unfold verify_val, rest_val. rewrite E1. cbn [bind].
  rewrite (shape_mat n 20 B) by auto. cbn [rassert bind]. rewrite E2. cbn [bind]. rewrite shape_refl, aclose_refl. cbn [rassert bind].
  unfold locs_val. cbn [alen]. rewrite (is_mat_len _ _ _ HX). rewrite (HE B HB). reflexivity.
Qed.
Lemma byrow_fails cent nm t0 A t b rx rl tol path h : mk_ss cent None true nm = Ok t0 -> 0 < nrows A -> fit_transform t0 (M A) = Ok (t, b) -> draws_ok rx rl ->
  trained (nrows A) t /\ exists h', tf_verify rx rl tol t path h = (h', Err TypeError) /\ unchanged h h'.
Proof.
  intros E0 Hn EF Hd. assert (HB : built t0) by (apply C01_constructors; right; right; left; eauto).
  destruct (C_fit_transform t0 (M A) t b HB EF) as (Ht & _ & _). change (alen (M A)) with (nrows A) in Ht. split; auto.
  assert (Es : exists s, t = TSS s /\ ss_byrow s = true /\ ss_shift s = None).
  { unfold mk_ss, ss_init in E0. cbn in E0. injection E0 as <-. unfold fit_transform in EF. cbn [fit_from fit_prog] in EF. unfold ss_fit in EF. cbn [ss_cent ss_scaling ss_mean ss_scale ss_shift ss_byrow ss_name] in EF.
    destruct (if cent then _ else _) as [[mean p1]|]; cbn [bind] in EF; [|discriminate]. destruct (exec p1 (M A)); cbn [bind] in EF; [|discriminate].
    destruct (exec (p1 ++ []) (M A)) in EF; cbn [bind] in EF; [|discriminate]. injection EF as <- _. eexists. split; [reflexivity|]. auto. }
  destruct Es as (s & -> & Hb & Hs). apply (locs_fail (nrows A)); auto; [congruence|apply Hd|]. intros B HB'.
  destruct (C01_all _ _ Ht (M B) (is_mat_len _ _ _ HB')) as [_ (c & Ec & _)]. cbn [inverse_transform inverse_prog] in Ec |- *. unfold ss_inverse_prog in *.
  destruct (ss_check_trained s); cbn [bind] in *; [|discriminate]. unfold check_locs, zlocs. cbn [bind]. rewrite asel_alen, map_length, Nat.eqb_refl. cbn [bind]. rewrite Hb, Hs. reflexivity.
Qed.
Lemma pipe_fails ns l nm rx rl tol path h : l <> [] -> 0 < lsumn ns -> Forall2 trained ns l -> (exists x y, In x ns /\ In y ns /\ x <> y) -> draws_ok rx rl ->
  trained (lsumn ns) (TPipe [TMulti l] nm) /\ exists h', tf_verify rx rl tol (TPipe [TMulti l] nm) path h = (h', Err ValueError) /\ unchanged h h'.
Proof.
  intros Hl Hn HT HS Hd. assert (TM : trained (lsumn ns) (TPipe [TMulti l] nm)). { apply trained_pipe. split; [discriminate|]. constructor; auto. apply trained_multi. eauto. }
  split; auto. apply (locs_fail (lsumn ns)); auto; [congruence|apply Hd|]. intros B HB. apply (C02_multi_sizes l ns (zlocs (rl path (lsumn ns))) (asel (rl path (lsumn ns)) (M B)) HT HS).
Qed.
(* a transform that overwrites its argument *)
Lemma careless_true o T : resp true (vo_transform o) T -> resp true (vo_transform (careless o)) T.
Proof.
  intros R h x Hw. destruct (R h x Hw) as (h' & U & P). exists h'. split; auto. unfold hsnd, hbind, hret in *. cbn [careless vo_transform]. unfold hbind.
  destruct (vo_transform o true x h) as [h1 [r|e]]; auto.
Qed.
Lemma careless_accepts o n T I draw X tol : vo_dim o = Some n -> 0 < n -> is_mat n 20 (X n) -> respects_inplace (vo_transform o) (no_output T) ->
  (forall l, respects_inplace (vo_inverse o l) (no_output (I l))) -> vo_locs o = h_locs (vo_inverse o) draw -> Forall (fun i => i < n) (draw n) ->
  (forall dd0, vo_ddts o = Some dd0 -> exists D a b, respects_inplace dd0 (no_output D) /\ row_affine n a b T D) -> inverse_of n T I -> (0 <= tol)%R ->
  forall h, exists h', h_verify (careless o) X tol h = (h', Ok tt) /\ unchanged h h'.
Proof.
  intros Hd Hn HX RT RI EL Hdr HD HI Ht h. destruct (HI 20 (X n) HX) as (X1 & E1 & HX1 & _ & _). destruct (HI 20 X1 HX1) as (B & E2 & HB & E3 & E4).
  assert (G : exists Dd, match vo_ddts o, Dd with Some dd0, Some D => respects_inplace dd0 (no_output D) | None, None => True | _, _ => False end /\
    match Dd with Some D => exists a b, row_affine n a b T D | None => True end).
  { destruct (vo_ddts o) as [dd0|]. - destruct (HD dd0 eq_refl) as (D & a & b & RD & RA). exists (Some D). split; auto. exists a, b. auto. - exists None. auto. }
  destruct G as (Dd & G1 & G2). unfold h_verify. cbn [careless vo_dim]. rewrite Hd. destruct (new_step h (M (X n))) as (h1 & x & N1 & Rx & Wx & U1 & D1). unfold hbind at 1. rewrite N1.
  pose proof (respects_resp _ _ true RT) as RT'. destruct (RT' h1 x Wx) as (h2 & U2 & P2). rewrite Rx, E1 in P2. destruct P2 as (y & P2 & Ry & Wy & ->).
  assert (V2 : unchanged h h2). { intros z Hz. destruct (U1 z Hz) as [Q1 Q2]. destruct (U2 z Q2) as [Q3 Q4]; [intros _; apply D1; auto|]. split; auto. congruence. }
  destruct (new_step h2 (M X1)) as (h3 & c & N3 & Rc & Wc & U3 & D3).
  assert (Ecall : hsnd (vo_transform (careless o) false x) h1 = (h3, Ok c)).
  { cbn [careless vo_transform]. unfold hsnd, hbind, hret in *. destruct (vo_transform o true x h1) as [h2' [r|e]]; [|discriminate]. injection P2 as -> P2. rewrite P2. unfold hcopy, hread. rewrite Ry, N3. reflexivity. }
  change (vo_transform (careless o)) with (vo_transform (careless o)). unfold hbind at 1.
  change (hbind (vo_transform o true x) (fun r => if false then hret r else hbind (hcopy (snd r)) (fun c => hret (tt, c)))) with (vo_transform (careless o) false x).
  rewrite Ecall. unfold hread at 1 2. rewrite Rc. destruct (U3 x Wy) as [Ex3 Wx3]. rewrite Ex3, Ry. rewrite hassert_r, shape_refl. rewrite hassert_r.
  rewrite is_not; [|apply D3; auto|apply (rd_addrs n 20 h1 x (X n)); auto; lia]. cbn [negb].
  destruct (rest_sim (careless o) T (I None) Dd (locs_val I draw) tol) with (n := n) (h := h3) (x := x) (X := X1) as (h4 & P4 & U4); auto; try congruence.
  - now apply careless_true. - intros fl. apply respects_resp, RI. - cbn [careless vo_ddts]. destruct (vo_ddts o), Dd; auto. intros fl. now apply respects_resp.
  - cbn [careless vo_locs]. rewrite EL. apply h_locs_sim. intros l. apply respects_resp, RI.
  - exists h4. split; [|apply (unch_trans _ h3); auto; apply (unch_trans _ h2); auto]. rewrite P4. f_equal.
    assert (K : verify_val T (I None) Dd (locs_val I draw) tol X1 = Ok tt).
    { apply (val_ok n _ _ _ _ tol X1 B); auto. unfold locs_val. cbn [alen]. rewrite (is_mat_len _ _ _ HX1). rewrite (E4 (draw n) Hdr). cbn [bind]. rewrite shape_refl, aclose_refl. reflexivity. }
    unfold verify_val in K. rewrite E2 in K. cbn [bind] in K. rewrite (shape_mat n 20 B) in K by auto. exact K.
Qed.
Lemma careless_refuted : exists t, trained 1 t /\ flat t /\
  (forall rx rl tol h, is_mat 1 20 (rx 1) -> Forall (fun i => i < 1) (rl 1) -> (0 <= tol)%R -> exists h', h_verify (careless (tf_obj t rl)) rx tol h = (h', Ok tt) /\ unchanged h h') /\
  exists h x h' r, wf h x /\ vo_transform (careless (tf_obj t (fun _ => []))) false x h = (h', Ok r) /\ rd h' x <> rd h x.
Proof.
  exists (TShift [1%R] None). assert (Ht : trained 1 (TShift [1%R] None)) by reflexivity. split; auto. split; [exact Logic.I|]. split.
  - intros rx rl tol h HX Hdr Htol. destruct (C08_all (TShift [1%R] None)) as (R1 & R2 & R3 & _).
    apply (careless_accepts (tf_obj (TShift [1%R] None) rl) 1 (transform (TShift [1%R] None)) (fun l => inverse_transform (TShift [1%R] None) l) rl rx tol); auto.
    + cbn. intros dd0 E. injection E as <-. destruct (C66_affine _ 1 Ht) as (a & b & Ha). eauto 6.
    + apply flat_inverse_of; auto. exact Logic.I.
  - set (h := {| hcell := fun _ => 0%R; hnext := 1 |}). assert (Wx : wf h (HM [[0]])) by (split; cbn; [constructor; auto; constructor|constructor; auto]).
    destruct (C08_all (TShift [1%R] None)) as (R1 & _). destruct (respects_resp _ _ true R1 h (HM [[0]]) Wx) as (h' & _ & P). assert (ET : transform (TShift [1%R] None) (rd h (HM [[0]])) = Ok (M [[(0 - 1)%R]])) by reflexivity. rewrite ET in P. destruct P as (y & P & Q & W & ->).
    destruct (new_step h' (rd h' (HM [[0]]))) as (h2 & c & N & _ & _ & U & _). exists h, (HM [[0]]), h2, (tt, c). split; auto. split.
    + cbn [careless vo_transform tf_obj]. unfold hsnd, hbind, hret in P. unfold hbind. destruct (htransform (TShift [1%R] None) true (HM [[0]]) h) as [h3 [r|]]; [|discriminate].
      injection P as -> P. rewrite P. unfold hcopy, hread. rewrite N. reflexivity.
    + destruct (U _ W) as [-> _]. cbn in Q. cbn. rewrite Q. intros E. injection E as E. lra.
Qed.
Lemma verdict o n T I D dd0 draw X tol B C Z E DX DB h : vo_dim o = Some n -> 0 < n -> is_mat n 20 (X n) -> respects_inplace (vo_transform o) (no_output T) ->
  (forall l, respects_inplace (vo_inverse o l) (no_output (I l))) -> vo_ddts o = Some dd0 -> respects_inplace dd0 (no_output D) ->
  vo_locs o = h_locs (vo_inverse o) draw -> Forall (fun i => i < n) (draw n) -> (0 <= tol)%R ->
  T (M (X n)) = Ok B -> I None B = Ok (M C) -> I (Some (zlocs (draw n))) (asel (draw n) B) = Ok (M Z) -> (exists v, D (M (X n)) = Ok v) ->
  time_ddt (M (X n)) = Ok DX -> D (M DX) = Ok (M E) -> time_ddt B = Ok DB ->
  exists h' r, h_verify o X tol h = (h', r) /\ unchanged h h' /\ (r = Ok tt \/ r = Err VerificationError) /\
  (r = Ok tt <-> near n 20 C (X n) /\ near (length (draw n)) 20 Z (take_at [] (X n) (draw n)) /\ (distance n 20 E DB <= tol * norm n 20 DB)%R).
Proof. intros Hd Hn HX RT RI Ed RD EL Hdr. exact (user_verdict o n T I draw X tol Hd Hn HX RT RI EL Hdr D dd0 B C Z E DX DB h Ed RD). Qed.

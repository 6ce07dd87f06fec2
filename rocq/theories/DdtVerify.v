(* DdtVerify.v -- verify() of the derivative estimators. *)
From Coq Require Import ZArith Reals Lra Lia.
From Verif Require Import AffProofs DdtProofs PreProofs BlockAlg MatAlg LinAlg OpsProofs OdeUnique.
From Verif Require Export DdtItpProofs.
#[local] Open Scope nat_scope.

Lemma F2_weaken {A B} (P Q : A -> B -> Prop) l l' : (forall a b, P a b -> Q a b) -> Forall2 P l l' -> Forall2 Q l l'.
Proof. intros H. induction 1; constructor; auto. Qed.

(* ---- the test functions ---- *)
Lemma d_pow n x : derivable_pt_lim (fun t => (t ^ n)%R) x (INR n * x ^ pred n)%R. Proof. apply derivable_pt_lim_pow. Qed.
Lemma d_exp2 x : derivable_pt_lim (fun t => exp (t / 2)) x (exp (x / 2) / 2)%R.
Proof. replace (exp (x / 2) / 2)%R with (exp (x / 2) * (/ 2 * 1))%R by field.
  apply (derivable_pt_lim_comp (fun t => (t / 2)%R) exp); [|apply derivable_pt_lim_exp].
  apply (derivable_pt_lim_ext (fun t => (/ 2 * t)%R)); [intros; field|]. apply (derivable_pt_lim_scal id). apply derivable_pt_lim_id. Qed.
Lemma d_sin x : derivable_pt_lim sin x (cos x). Proof. apply derivable_pt_lim_sin. Qed.
Lemma tests_deriv : Forall (fun p => forall x, (1 <= x)%R -> derivable_pt_lim (fst p) x (snd p x)) vtests.
Proof. unfold vtests. repeat apply Forall_cons; try apply Forall_nil; intros x Hx; cbn [fst snd].
  - apply derivable_pt_lim_id.
  - replace (4 * x ^ 3 - x ^ 2)%R with (INR 4 * x ^ 3 - (/ 3 * (INR 3 * x ^ 2)))%R by (cbn; field).
    apply (derivable_pt_lim_minus (fun t => (t ^ 4)%R) (fun t => (t ^ 3 / 3)%R)); [apply (d_pow 4)|].
    apply (derivable_pt_lim_ext (fun t => (/ 3 * t ^ 3)%R)); [intros; field|]. apply (derivable_pt_lim_scal (fun t => (t ^ 3)%R)). apply (d_pow 3).
  - apply d_sin.
  - apply derivable_pt_lim_exp.
  - replace (-1 / (x + 1) ^ 2)%R with ((0 * (x + 1) - (1 + 0) * 1) / Rsqr (x + 1))%R by (unfold Rsqr; field; lra).
    apply (derivable_pt_lim_div (fct_cte 1) (fun t => (t + 1)%R)); [apply derivable_pt_lim_const| |lra]. apply (derivable_pt_lim_plus id (fct_cte 1)); [apply derivable_pt_lim_id|apply derivable_pt_lim_const].
  - replace (1 - 3 * x ^ 2 - sin x - exp (x / 2) / 2)%R with (1 - INR 3 * x ^ 2 + - sin x - exp (x / 2) / 2)%R by (cbn; ring).
    apply (derivable_pt_lim_minus (fun t => (t - t ^ 3 + cos t)%R) (fun t => exp (t / 2))); [|apply d_exp2].
    apply (derivable_pt_lim_plus (fun t => (t - t ^ 3)%R) cos); [|apply derivable_pt_lim_cos].
    apply (derivable_pt_lim_minus id (fun t => (t ^ 3)%R)); [apply derivable_pt_lim_id|apply (d_pow 3)]. Qed.
Lemma tests_derivative i f f' x : nth_error vtests i = Some (f, f') -> (1 <= x)%R -> derivable_pt_lim f x (f' x).
Proof. intros E Hx. assert (H := tests_deriv). rewrite Forall_forall in H. exact (H _ (nth_error_In _ _ E) x Hx). Qed.

(* ---- the reported errors ---- *)
Lemma vtimes_length npts dt : length (vtimes npts dt) = npts. Proof. unfold vtimes. rewrite map_length, seq_length. reflexivity. Qed.
Lemma vtimes_nth npts dt j : j < npts -> vget (vtimes npts dt) j = (1 + dt * INR j)%R.
Proof. intros Hj. unfold vtimes, vget. rewrite (nth_map_in (fun j => (1 + dt * INR j)%R) (seq 0 npts) j 0%R 0) by (rewrite seq_length; auto). rewrite seq_nth by auto. reflexivity. Qed.
Lemma vstates_mat t : is_mat 6 (length t) (vstates t).
Proof. split; [reflexivity|]. unfold vstates. apply Forall_forall. intros row H. apply in_map_iff in H. destruct H as (p & <- & _). apply map_length. Qed.
Lemma vderivs_mat t : is_mat 6 (length t) (vderivs t).
Proof. split; [reflexivity|]. unfold vderivs. apply Forall_forall. intros row H. apply in_map_iff in H. destruct H as (p & <- & _). apply map_length. Qed.

Lemma vrelerr_compared w t f' D1 i : w <= length t -> length (nth i D1 []) = w -> compared 0 w t f' D1 i (vrelerr (nth i D1 []) (slice 0 (0 + w) (map f' t))).
Proof. intros Hw HD. set (truth := slice 0 (0 + w) (map f' t)). assert (HT : length truth = w) by (unfold truth; rewrite slice_length by (rewrite ?map_length; lia); lia).
  assert (Hg : forall j, j < w -> vget truth j = f' (vget t (0 + j))). { intros j Hj. unfold truth, vget. rewrite slice_nth by lia. cbn [Nat.add]. apply (nth_map_in f' t j 0%R 0%R). lia. }
  assert (Hden : vnorm2 truth = bsum w (fun j => Rsqr (f' (vget t (0 + j))))). { rewrite (vnorm2_bsum w) by auto. apply bsum_ext. intros j Hj. rewrite Hg by auto. reflexivity. }
  unfold vrelerr, compared. destruct (Req_EM_T (vnorm2 truth) 0) as [E|E]; rewrite Hden in *; auto. split; auto. f_equal. f_equal.
  rewrite (vnorm2_bsum w). 2:{ unfold is_vec, vsub. rewrite map2_length. lia. } apply bsum_ext. intros j Hj. rewrite (vget_vsub w) by auto. rewrite Hg by auto. reflexivity. Qed.

Lemma verrors_length npts dt Q1 D1 errs : verrors npts dt Q1 D1 = Ok errs -> length errs = 6.
Proof. unfold verrors. destruct (ncols Q1 =? 0); [discriminate|]. destruct (negb _); [discriminate|]. destruct (_ && _)%bool eqn:EB; [|discriminate]. intros [= <-]. rewrite map2_length. unfold nrows in EB.
  apply Bool.andb_true_iff in EB. destruct EB as (EB & _). apply Nat.eqb_eq in EB. rewrite EB, map_length. reflexivity. Qed.
Lemma verrors_compared npts dt Q1 D1 errs : verrors npts dt Q1 D1 = Ok errs -> ncols Q1 <= npts -> is_mat 6 (ncols Q1) D1 ->
  forall i f, nth_error vtests i = Some f -> compared 0 (ncols Q1) (vtimes npts dt) (snd f) D1 i (nth i errs None).
Proof. intros E Hw (HlD & HFD) i f Hf. unfold verrors in E. destruct (ncols Q1 =? 0); [discriminate|]. destruct (negb _); [discriminate|]. destruct (_ && _)%bool; [|discriminate]. apply (f_equal (fun r => match r with Ok a => a | Err _ => errs end)) in E. cbv beta iota in E. rewrite <- E. clear E.
  assert (Hi : i < 6) by (apply (nth_error_Some vtests); congruence).
  rewrite (map2_nth vrelerr _ _ i [] [] None) by (rewrite ?map_length; unfold vderivs; rewrite ?map_length; cbn; lia).
  replace (nth i (map (slice 0 (0 + ncols Q1)) (vderivs (vtimes npts dt))) []) with (slice 0 (0 + ncols Q1) (map (snd f) (vtimes npts dt))).
  - apply vrelerr_compared. { rewrite vtimes_length. auto. } rewrite Forall_forall in HFD. apply HFD, nth_In. lia.
  - unfold vderivs. rewrite map_map. rewrite (nth_map_in (fun p => slice 0 (0 + ncols Q1) (map (snd p) (vtimes npts dt))) vtests i [] (fun x => x, fun x => x)) by auto. rewrite (nth_error_nth _ _ _ Hf). reflexivity. Qed.

Section verify.
  Context {St : Type} (estimate : St -> arr -> option arr -> res (mat * mat * option arr)) (time : St -> vec) (set_time : vec -> St -> St).
  Context (Hlaws : time_laws time set_time).

  Lemma step_reports npts e0 t e dt e' errs : e = set_time t e0 -> verify_step estimate set_time npts e dt = (e', Ok errs) -> e' = set_time (vtimes npts dt) e0 /\ reports estimate set_time npts e0 dt errs.
  Proof. intros -> E. unfold verify_step in E. destruct Hlaws as (_ & _ & HS). rewrite HS in E. destruct (estimate _ _ _) as [[[Q1 D1] u]|] eqn:EE; cbn [bind] in E; [|discriminate]. injection E as <- E. split; auto.
    exists Q1, D1, u. cbv zeta. split; auto. split; [exact (verrors_length _ _ _ _ _ E)|]. intros HP HD i f Hf. apply verrors_compared; auto. Qed.
  Lemma steps_reports npts e0 l : forall t e e' errss, e = set_time t e0 -> verify_steps estimate set_time npts e l = (e', Ok errss) -> (exists t', e' = set_time t' e0) /\ Forall2 (fun dt errs => reports estimate set_time npts e0 dt errs) l errss.
  Proof. induction l as [|dt l IH]; intros t e e' errss He E; cbn [verify_steps] in E.
    - injection E as <- <-. split; eauto.
    - destruct (verify_step _ _ _ _ _) as [e1 [errs|]] eqn:E1; [|discriminate]. destruct (step_reports npts e0 t e dt e1 errs He E1) as (He1 & HR).
      destruct (verify_steps estimate set_time npts e1 l) as [e2 [rest|]] eqn:E2; [|discriminate]. injection E as <- <-. destruct (IH _ _ _ _ He1 E2) as (HT & HF). split; auto. Qed.

  Lemma shapes_ok Q U e : verify_shapes estimate Q U e = Ok tt <-> good_shapes estimate Q U e.
  Proof. unfold verify_shapes, good_shapes. split.
    - destruct (estimate e (M Q) None) as [[[Q1 D1] u]|] eqn:E1; [|discriminate]. cbn [bind]. destruct (Nat.eqb_spec (nrows Q1) (nrows Q)); [|discriminate]. destruct (Nat.eqb_spec (nrows D1) (nrows Q)); [|discriminate]. destruct (Nat.eqb_spec (ncols Q1) (ncols D1)); [|discriminate]. cbn [negb].
      destruct (estimate e (M Q) (Some (M U))) as [[[Q2 D2] U2]|] eqn:E2; [|discriminate]. cbn [bind]. destruct U2 as [[|U2]|]; try discriminate. destruct (Nat.eqb_spec (nrows U2) (nrows U)); [|discriminate]. destruct (Nat.eqb_spec (ncols U2) (ncols Q2)); [|discriminate].
      intros _. exists Q1, D1, u, Q2, D2, U2. repeat split; auto.
    - intros (Q1 & D1 & u & Q2 & D2 & U2 & E1 & H1 & H2 & H3 & E2 & H4 & H5). rewrite E1. cbn [bind]. rewrite H1, H2, H3, !Nat.eqb_refl. cbn [negb]. rewrite E2. cbn [bind]. rewrite H4, H5, !Nat.eqb_refl. reflexivity. Qed.

  (* verify() reports relative errors, and leaves the estimator as it was *)
  Lemma verify_ok npts dts Q U e e' errss : verify estimate time set_time npts dts Q U e = (e', Ok errss) ->
    e' = e /\ good_shapes estimate Q U e /\ Forall2 (fun dt errs => reports estimate set_time npts e dt errs) dts errss.
  Proof. intros E. unfold verify in E. destruct (verify_shapes estimate Q U e) as [[]|] eqn:ES; [|discriminate]. apply shapes_ok in ES. destruct (verify_steps _ _ _ _ _) as [e1 [errs|]] eqn:E1; [|discriminate]. injection E as <- <-.
    destruct Hlaws as (L1 & L2 & L3). destruct (steps_reports npts e dts (time e) e e1 errs) as ((t' & ->) & HF); [symmetry; apply L2|auto|]. split; [rewrite L3; apply L2|]. split; auto. Qed.

  (* wrong shapes are an error, and then nothing changes *)
  Lemma verify_shapes_fail npts dts Q U e : ~ good_shapes estimate Q U e -> exists x, verify estimate time set_time npts dts Q U e = (e, Err x) /\
    ((exists o1 o2, estimate e (M Q) None = Ok o1 /\ estimate e (M Q) (Some (M U)) = Ok o2) -> x = VerificationError).
  Proof. intros HN. unfold verify. destruct (verify_shapes estimate Q U e) as [[]|x] eqn:ES; [apply shapes_ok in ES; contradiction|]. exists x. split; auto.
    intros (o1 & o2 & E1 & E2). unfold verify_shapes in ES. rewrite E1 in ES. cbn [bind] in ES. destruct o1 as [[Q1 D1] u]. destruct (negb _); [congruence|]. destruct (negb _); [congruence|]. destruct (negb _); [congruence|].
    rewrite E2 in ES. cbn [bind] in ES. destruct o2 as [[Q2 D2] [[|U2]|]]; try congruence. destruct (negb _); [congruence|]. destruct (negb _); congruence. Qed.

  (* an exception raised while the errors are measured leaves the time domain of the test *)
  Lemma verify_raises npts dts Q U e e' x : verify estimate time set_time npts dts Q U e = (e', Err x) -> good_shapes estimate Q U e -> exists dt, In dt dts /\ e' = set_time (vtimes npts dt) e.
  Proof. intros E HG. unfold verify in E. apply shapes_ok in HG. rewrite HG in E. destruct (verify_steps _ _ _ _ _) as [e1 [errs|y]] eqn:E1; [discriminate|]. injection E as <- <-. destruct Hlaws as (L1 & L2 & L3).
    assert (HS : exists t, e = set_time t e) by (exists (time e); symmetry; apply L2).
    assert (HG' : forall l e2 e3, (exists t, e2 = set_time t e) -> verify_steps estimate set_time npts e2 l = (e3, Err y) -> exists dt, In dt l /\ e3 = set_time (vtimes npts dt) e).
    { induction l as [|dt l IH]; intros e2 e3 (t & ->) EE; cbn [verify_steps] in EE; [discriminate|]. unfold verify_step in EE at 1. cbv zeta in EE. rewrite L3 in EE.
      destruct (do a <- _; _) as [errs|z] eqn:Er in EE.
      - destruct (verify_steps estimate set_time npts _ l) as [e4 [rest|z]] eqn:E2; [discriminate|]. injection EE as <- <-. destruct (IH _ _ (ex_intro _ _ eq_refl) E2) as (dt' & HI & Hd). exists dt'. split; auto. right; auto.
      - injection EE as <- <-. exists dt. split; auto. left; auto. }
    apply (HG' dts e e1 HS E1). Qed.
End verify.

Lemma ufd_laws : time_laws u_time ufd_set. Proof. repeat split; intros; destruct e; reflexivity. Qed.
Lemma nfd_laws : time_laws (fun t : vec => t) (fun t _ => t). Proof. repeat split; auto. Qed.
Lemma ide_laws : time_laws id_time ide_set. Proof. repeat split; intros; destruct e; reflexivity. Qed.

(* an estimator that returns the states it is given *)
Lemma same_placed npts dt : 0 < npts -> placed 6 0 (vstates (vtimes npts dt)) (vstates (vtimes npts dt)).
Proof. intros Hn. assert (HM := vstates_mat (vtimes npts dt)). rewrite vtimes_length in HM. assert (HC := ncols_is_mat 6 npts _ HM ltac:(lia)). unfold placed. rewrite HC. repeat split; auto; try lia. apply HM. Qed.

Lemma verrors_ok npts dt Q1 D1 : 0 < ncols Q1 <= npts -> nrows Q1 = 6 -> is_mat 6 (ncols Q1) D1 -> exists errs, verrors npts dt Q1 D1 = Ok errs.
Proof. intros Hw HQ HD. unfold verrors. destruct (Nat.eqb_spec (ncols Q1) 0); [lia|]. assert (HM := vderivs_mat (vtimes npts dt)). rewrite vtimes_length in HM. rewrite HQ. change (nrows (vstates (vtimes npts dt))) with 6. cbn [Nat.eqb negb].
  rewrite (is_mat_nrows 6 _ D1 HD), (ncols_is_mat 6 _ D1 HD) by lia. assert (HT := mcols_shape 6 npts 0 (0 + ncols Q1) _ HM ltac:(lia) ltac:(lia)). unfold mcols in HT. rewrite (is_mat_nrows _ _ _ HT), (ncols_is_mat _ _ _ HT) by lia.
  replace (0 + ncols Q1 - 0) with (ncols Q1) by lia. rewrite !Nat.eqb_refl. cbn [andb]. eexists; reflexivity. Qed.
Lemma verify_defined {St} estimate time set_time npts dts Q U (e : St) : time_laws time set_time -> good_shapes estimate Q U e ->
  (forall dt, In dt dts -> exists Q1 D1 u, estimate (set_time (vtimes npts dt) e) (M (vstates (vtimes npts dt))) None = Ok (Q1, D1, u) /\ 0 < ncols Q1 <= npts /\ nrows Q1 = 6 /\ is_mat 6 (ncols Q1) D1) ->
  exists errss, verify estimate time set_time npts dts Q U e = (e, Ok errss).
Proof. intros HL HG H. assert (HS : forall l t, (forall dt, In dt l -> In dt dts) -> exists e' errss, verify_steps estimate set_time npts (set_time t e) l = (e', Ok errss)).
  { induction l as [|dt l IH]; intros t Hl; cbn [verify_steps]; [eauto|]. unfold verify_step. cbv zeta. destruct HL as (L1 & L2 & L3). rewrite L3. destruct (H dt) as (Q1 & D1 & u & E & HQ1 & HQ2 & HD); [apply Hl; left; auto|].
    rewrite E. cbn [bind]. destruct (verrors_ok npts dt Q1 D1 HQ1 HQ2 HD) as (errs & ->). destruct (IH (vtimes npts dt)) as (e' & errss & ->); [intros; apply Hl; right; auto|]. eauto. }
  destruct (HS dts (time e) ltac:(auto)) as (e' & errss & E). destruct HL as (L1 & L2 & L3). rewrite L2 in E.
  assert (EV : verify estimate time set_time npts dts Q U e = (set_time (time e) e', Ok errss)). { unfold verify. apply shapes_ok in HG. rewrite HG, E. reflexivity. }
  exists errss. rewrite EV. apply (verify_ok estimate time set_time (conj L1 (conj L2 L3))) in EV. destruct EV as (-> & _). reflexivity. Qed.

(* ---- uniform finite differences ---- *)
Lemma first_le s npts : enough s npts -> first_time s + kept s npts <= npts.
Proof. unfold enough, kept, first_time. destruct (scheme_mode s) as [md|] eqn:Em; [|lia]. assert (first_col md (scheme_order s) <= scheme_order s) by (apply first_col_le; intros ->; apply tab_even; auto). lia. Qed.
Lemma ufd_placed e r k Q : 0 < r -> is_mat r k Q -> enough (u_scheme e) k -> 0 < kept (u_scheme e) k ->
  exists Q1 D1, ufd_estimate e (M Q) None = Ok (Q1, D1, None) /\ placed r (first_time (u_scheme e)) Q Q1 /\ ncols Q1 = kept (u_scheme e) k /\ is_mat r (kept (u_scheme e) k) D1.
Proof. intros Hr HM He Hk. destruct (ufd_estimate_ok e r k Q None Hr HM He I) as (Q1 & D1 & E & EQ & HQ & HD). exists Q1, D1. split; auto.
  rewrite (mask_mat e r k Q HM He) in EQ. injection EQ as EQ. assert (HC := ncols_is_mat r _ Q1 HQ Hr). assert (HF := first_le _ _ He). split; [|split; auto].
  unfold placed. rewrite HC, (ncols_is_mat r k Q HM) by lia. repeat split; auto; try apply HQ. intros i j Hi Hj. rewrite EQ. apply (mcols_entry r k); auto; unfold firstkept; fold (first_time (u_scheme e)); lia. Qed.
Lemma ufd_test e npts dt : enough (u_scheme e) npts -> 0 < kept (u_scheme e) npts -> let t := vtimes npts dt in
  exists Q1 D1, ufd_estimate (ufd_set t e) (M (vstates t)) None = Ok (Q1, D1, None) /\ placed 6 (first_time (u_scheme e)) (vstates t) Q1 /\ ncols Q1 = kept (u_scheme e) npts /\ is_mat 6 (kept (u_scheme e) npts) D1.
Proof. intros He Hk t. apply (ufd_placed (ufd_set t e) 6 npts (vstates t)); auto; [lia|]. assert (HM := vstates_mat t). unfold t in HM. rewrite vtimes_length in HM. exact HM. Qed.

Lemma ufd_shapes e r m Q U : 0 < r -> 0 < m -> is_mat r (length (u_time e)) Q -> is_mat m (length (u_time e)) U -> enough (u_scheme e) (length (u_time e)) -> good_shapes ufd_estimate Q U e.
Proof. intros Hr Hm HQ HU He. destruct (ufd_estimate_ok e r _ Q None Hr HQ He I) as (Q1 & D1 & E1 & _ & HQ1 & HD1). assert (Ha : aligned (length (u_time e)) (Some (M U))) by (cbn; eauto).
  destruct (ufd_estimate_ok e r _ Q (Some (M U)) Hr HQ He Ha) as (Q2 & D2 & E2 & _ & HQ2 & HD2). cbn [two_dim] in E2. rewrite (mask_mat e m (length (u_time e)) U HU He) in E2.
  assert (HU2 : is_mat m (kept (u_scheme e) (length (u_time e))) (mcols (firstkept (u_scheme e)) (firstkept (u_scheme e) + kept (u_scheme e) (length (u_time e))) U)).
  { apply (mcols_shape' m (length (u_time e))); auto. assert (HF := first_le _ _ He). unfold firstkept. fold (first_time (u_scheme e)). lia. }
  exists Q1, D1. do 4 eexists. split; [exact E1|]. rewrite (is_mat_nrows _ _ _ HQ1), (is_mat_nrows _ _ _ HD1), (is_mat_nrows _ _ _ HQ), (ncols_is_mat _ _ _ HQ1), (ncols_is_mat _ _ _ HD1) by auto.
  do 3 (split; [reflexivity|]). split; [exact E2|]. split; [rewrite (is_mat_nrows _ _ _ HU2), (is_mat_nrows _ _ _ HU); auto|rewrite (ncols_is_mat _ _ _ HU2), (ncols_is_mat _ _ _ HQ2) by auto; auto]. Qed.

Lemma ufd_verify_ok e npts dts r m Q U : 0 < r -> 0 < m -> is_mat r (length (u_time e)) Q -> is_mat m (length (u_time e)) U -> enough (u_scheme e) (length (u_time e)) -> enough (u_scheme e) npts -> 0 < kept (u_scheme e) npts ->
  exists errss, ufd_verify npts dts Q U e = (e, Ok errss) /\ Forall2 (fun dt errs => let t := vtimes npts dt in exists Q1 D1, ufd_estimate {| u_time := t; u_scheme := u_scheme e |} (M (vstates t)) None = Ok (Q1, D1, None) /\
    placed (length vtests) (first_time (u_scheme e)) (vstates t) Q1 /\ length errs = length vtests /\
    (first_time (u_scheme e) = 0 -> forall i f, nth_error vtests i = Some f -> compared 0 (ncols Q1) t (snd f) D1 i (nth i errs None))) dts errss.
Proof. intros Hr Hm HQ HU He Hn Hk. destruct (verify_defined ufd_estimate u_time ufd_set npts dts Q U e ufd_laws) as (errss & E); [apply (ufd_shapes e r m); auto| |].
  - intros dt _. destruct (ufd_test e npts dt Hn Hk) as (Q1 & D1 & E & HP & HC & HD). exists Q1, D1, None. split; auto. rewrite HC. assert (HF := first_le _ _ Hn). repeat split; auto; try lia; try apply HD. destruct HP as (HP & _). apply (is_mat_nrows _ _ _ HP).
  - exists errss. split; auto. destruct (verify_ok _ _ _ ufd_laws _ _ _ _ _ _ _ E) as (_ & _ & HF). revert HF. apply F2_weaken. intros dt errs (Q1 & D1 & u & EE & HL & HR) t. destruct (ufd_test e npts dt Hn Hk) as (Q1' & D1' & E' & HP & HC & HD).
    fold t in E', HP, HR, EE. rewrite EE in E'. injection E' as -> -> ->. exists Q1', D1'. repeat split; auto; try apply HP. intros _ i f Hf. apply HR; auto; rewrite HC; [assert (HF := first_le _ _ Hn); lia|exact HD]. Qed.

(* nonuniform differences and interpolation return the states they are given *)
Lemma nfd_verify_true npts dts Q U t t' errss : 0 < npts -> nfd_verify npts dts Q U t = (t', Ok errss) -> t' = t /\ Forall2 (fun dt errs => let t := vtimes npts dt in exists D1, nfd_estimate t (M (vstates t)) None = Ok (vstates t, D1, None) /\
    length errs = length vtests /\ forall i f, nth_error vtests i = Some f -> compared 0 npts t (snd f) D1 i (nth i errs None)) dts errss.
Proof. intros Hn E. destruct (verify_ok _ _ _ nfd_laws _ _ _ _ _ _ _ E) as (-> & _ & HF). split; auto. revert HF. apply F2_weaken. intros dt errs (Q1 & D1 & u & EE & HL & HR) t0. cbv zeta in *. fold t0 in EE, HR.
  assert (HM := vstates_mat t0). assert (Ht0 : length t0 = npts) by apply vtimes_length. rewrite Ht0 in HM. assert (HC := ncols_is_mat 6 npts _ HM ltac:(lia)).
  assert (EE' := EE). unfold nfd_estimate in EE'. rewrite HC, Ht0, Nat.eqb_refl in EE'. cbn [negb check_inputs bind] in EE'. destruct (np_gradient (vstates t0) t0) as [D|] eqn:EG; [|discriminate]. cbn [bind] in EE'. 
  assert (E1 : Q1 = vstates t0 /\ D1 = D /\ u = None) by (repeat split; congruence). destruct E1 as (-> & -> & ->). exists D. split; auto. split; auto. intros i f Hf. rewrite <- HC. apply HR; auto; [rewrite HC; auto|]. rewrite HC.
  unfold np_gradient in EG. destruct (length t0 <? 3); [discriminate|]. assert (ED : D = map (fun f => gradient f t0) (vstates t0)) by congruence. rewrite ED. split; [rewrite map_length; apply HM|]. apply Forall_forall. intros row H. apply in_map_iff in H. destruct H as (x & <- & _). unfold gradient. rewrite map_length, seq_length. auto. Qed.

Lemma ide_verify_ok npts dts Q U e e' errss : ide_verify npts dts Q U e = (e', Ok errss) -> e' = e.
Proof. unfold ide_verify. destruct (verify _ _ _ _ _ _ _ _) as [e1 [errs|]] eqn:E; [|discriminate]. intros [= <- <-]. destruct (verify_ok _ _ _ ide_laws _ _ _ _ _ _ _ E) as (-> & _). destruct e; reflexivity. Qed.
Lemma ide_verify_true (lib : icname -> rule) n npts dts Q U e e' errss : id_class e = interp_of (lib n) 1 -> 0 < npts -> ide_verify npts dts Q U e = (e', Ok errss) -> e' = e /\ Forall2 (fun dt errs => let t := vtimes npts dt in exists D1,
    ide_estimate {| id_time := t; id_class := id_class e; id_new := None |} (M (vstates t)) None = Ok (vstates t, D1, None) /\
    length errs = length vtests /\ forall i f, nth_error vtests i = Some f -> compared 0 npts t (snd f) D1 i (nth i errs None)) dts errss.
Proof. intros HC Hn E. split; [exact (ide_verify_ok _ _ _ _ _ _ _ E)|]. unfold ide_verify in E. destruct (verify _ _ _ _ _ _ _ _) as [e1 [errs|]] eqn:EV; [|discriminate]. injection E as <- <-. destruct (verify_ok _ _ _ ide_laws _ _ _ _ _ _ _ EV) as (_ & _ & HF). revert HF. apply F2_weaken. intros dt errs' (Q1 & D1 & u & EE & HL & HR) t0. cbv zeta in *. fold t0 in EE, HR.
  assert (HM := vstates_mat t0). assert (Ht0 : length t0 = npts) by apply vtimes_length. assert (HM' := HM). rewrite Ht0 in HM'. assert (HCo := ncols_is_mat 6 npts _ HM' ltac:(lia)). unfold ide_set in EE. cbn [id_class id_new] in EE.
  destruct (estimate_ok lib {| id_time := t0; id_class := id_class e; id_new := None |} n 6 (vstates t0) None Q1 D1 u HC ltac:(lia) HM ltac:(discriminate) EE) as (gs & _ & (HD & _) & HN & _). destruct (HN eq_refl) as (-> & ->).
  exists D1. split; auto. split; auto. intros i f Hf. rewrite <- HCo. apply HR; auto; [rewrite HCo; auto|]. rewrite HCo, <- Ht0. exact HD. Qed.

(* ---- the errors reported for a backward scheme are not those of its estimates ---- *)
Lemma sinh_gt d : (0 < d -> 2 * d < exp d - exp (- d))%R.
Proof. intros Hd. destruct (MVT_cor2 (fun x => exp x - exp (- x) - 2 * x)%R (fun x => exp x + exp (- x) - 2)%R 0 d Hd) as (c & Ec & Hc).
  - intros c _. replace (exp c + exp (- c) - 2)%R with (exp c - (exp (- c) * (- (1))) - 2 * 1)%R by ring.
    apply (derivable_pt_lim_minus (fun x => exp x - exp (- x))%R (fun x => 2 * x)%R); [|apply (derivable_pt_lim_scal id), derivable_pt_lim_id].
    apply (derivable_pt_lim_minus exp (fun x => exp (- x))); [apply derivable_pt_lim_exp|]. apply (derivable_pt_lim_comp (fun x => (- x)%R) exp); [|apply derivable_pt_lim_exp]. apply (derivable_pt_lim_opp id), derivable_pt_lim_id.
  - assert (E1 : (exp c * exp (- c) = 1)%R) by (rewrite <- exp_plus; replace (c + - c)%R with 0%R by ring; apply exp_0). assert (H1 : (1 < exp c)%R) by (rewrite <- exp_0; apply exp_increasing; lra).
    assert (H2 : (exp (- c) = / exp c)%R) by apply exp_Ropp. assert (HP : (0 < exp c + exp (- c) - 2)%R).
    { replace (exp c + exp (- c) - 2)%R with (Rsqr (exp c - 1) * / exp c)%R by (rewrite H2; unfold Rsqr; field; lra). apply Rmult_lt_0_compat; [apply Rlt_0_sqr; lra|apply Rinv_0_lt_compat; lra]. }
    rewrite Ropp_0, exp_0 in Ec. assert (0 < (exp c + exp (- c) - 2) * (d - 0))%R by (apply Rmult_lt_0_compat; lra). lra. Qed.

Lemma scaled_error w (y : nat -> R) (c : R) : (0 < w)%nat -> (forall j, 0 < y j)%R -> (sqrt (bsum w (fun j => Rsqr (c * y j))) / sqrt (bsum w (fun j => Rsqr (y j))) = Rabs c)%R.
Proof. intros Hw Hy. assert (HS : (0 < bsum w (fun j => Rsqr (y j)))%R).
  { destruct w as [|w]; [lia|]. apply (Rlt_le_trans _ (Rsqr (y 0%nat))); [apply Rlt_0_sqr; specialize (Hy 0%nat); lra|]. apply (bsum_term (S w) (fun j => Rsqr (y j))); [intros; apply Rle_0_sqr|lia]. }
  rewrite (bsum_ext w _ (fun j => Rsqr c * Rsqr (y j))%R) by (intros; apply Rsqr_mult). rewrite bsum_scal_l. rewrite sqrt_mult; [|apply Rle_0_sqr|lra]. rewrite sqrt_Rsqr_abs. assert (sqrt (bsum w (fun j => Rsqr (y j))) <> 0)%R by (apply Rgt_not_eq, sqrt_lt_R0; auto). field. auto. Qed.

Lemma vstates_exp t j : j < length t -> mget (vstates t) 3 j = exp (vget t j).
Proof. intros Hj. unfold mget, vget, vstates. cbn [map nth vtests fst]. apply (nth_map_in exp t j 0%R 0%R). auto. Qed.
Lemma bwd1_exp t npts dt : length t = npts -> (forall j, j < npts -> vget t j = (1 + dt * INR j)%R) -> 2 <= npts ->
  exists Q1 D1, ufd_estimate {| u_time := t; u_scheme := Bwd1 |} (M (vstates t)) None = Ok (Q1, D1, None) /\ forall j, j < npts - 1 -> mget D1 3 j = ((exp (vget t (1 + j)) - exp (vget t j)) / dt)%R.
Proof. intros Hl Ht Hn. assert (HM := vstates_mat t). rewrite Hl in HM. destruct (scheme_ok Bwd1 Bwd 6 npts (vstates t) (ufd_dt {| u_time := t; u_scheme := Bwd1 |}) None eq_refl ltac:(lia) HM ltac:(cbn; lia)) as (D & E & HD & HE). cbv zeta in *.
  eexists. exists D. split; [unfold ufd_estimate, check_inputs; cbn [bind u_scheme]; exact E|]. intros j Hj. rewrite HE by (cbn [scheme_order]; lia). unfold ufd_dt. cbn [u_time]. rewrite !Ht by lia. cbn [tab fst snd].
  unfold stencil, zdiv. cbn [map length]. rewrite !bsum_S_l. change (bsum 0 _) with 0%R. unfold vget at 1 2. cbn [nth Nat.add]. rewrite !vstates_exp by lia.
  rewrite !Ht by lia. change (INR 1) with 1%R. change (INR 0) with 0%R. replace (1 * (1 + dt * 1 - (1 + dt * 0)))%R with dt by ring. unfold Rdiv. ring. Qed.

Lemma bwd1_misreported e npts dt r m Q U : u_scheme e = Bwd1 -> 0 < length (u_time e) -> 2 <= npts -> (0 < dt)%R -> 0 < r -> 0 < m -> is_mat r (length (u_time e)) Q -> is_mat m (length (u_time e)) U ->
  exists errs Q1 D1 x y, let t := vtimes npts dt in ufd_verify npts [dt] Q U e = (e, Ok [errs]) /\ ufd_estimate {| u_time := t; u_scheme := Bwd1 |} (M (vstates t)) None = Ok (Q1, D1, None) /\
    placed (length vtests) 1 (vstates t) Q1 /\ nth_error vtests 3 = Some (exp, exp) /\ nth_error errs 3 = Some (Some x) /\ true_error 1 (ncols Q1) t exp D1 3 y /\ (y < x)%R.
Proof. intros Hs Hk Hn Hdt Hr Hm HQ HU. assert (Hen : enough (u_scheme e) (length (u_time e))) by (rewrite Hs; cbn; lia). assert (Hen' : enough (u_scheme e) npts) by (rewrite Hs; cbn; lia). assert (Hkp : 0 < kept (u_scheme e) npts) by (rewrite Hs; cbn; lia).
  destruct (ufd_verify_ok e npts [dt] r m Q U Hr Hm HQ HU Hen Hen' Hkp) as (errss & EV & HF). set (t := vtimes npts dt) in *.
  destruct (verify_ok _ _ _ ufd_laws _ _ _ _ _ _ _ EV) as (_ & _ & HF'). inversion HF' as [|? errs ? ? HR HF2]; subst. inversion HF2; subst. clear HF' HF2.
  inversion HF as [|? ? ? ? H1 _]; subst. cbv zeta in H1. fold t in H1. rewrite Hs in H1. destruct H1 as (Q1 & D1 & E1 & HP & HLe & _). change (first_time Bwd1) with 1 in HP. clear HF.
  destruct HR as (Q1' & D1' & u & E2 & _ & HC). fold t in E2, HC. unfold ufd_set in E2. rewrite Hs in E2. rewrite E1 in E2. injection E2 as <- <- <-.
  destruct (ufd_test e npts dt Hen' Hkp) as (Q2 & D2 & E3 & _ & Hc2 & HD2). fold t in E3. unfold ufd_set in E3. rewrite Hs in E3, Hc2, HD2. rewrite E1 in E3. injection E3 as <- <-. cbn [kept scheme_mode scheme_order] in Hc2, HD2.
  assert (Hlt : length t = npts) by apply vtimes_length. destruct (bwd1_exp t npts dt Hlt ltac:(intros; apply vtimes_nth; auto) Hn) as (Q3 & D3 & E4 & HE). rewrite E1 in E4. injection E4 as <- <-.
  specialize (HC ltac:(lia) ltac:(rewrite Hc2; exact HD2) 3 (exp, exp) eq_refl). cbn [snd] in HC. rewrite Hc2 in *. set (w := npts - 1) in *. assert (Hw : 0 < w) by (unfold w; lia).
  assert (Hstep : forall j, j < w -> vget t (1 + j) = (vget t j + dt)%R). { intros j Hj. unfold t. rewrite !vtimes_nth by (unfold w in Hj; lia). change (1 + j) with (S j). rewrite S_INR. ring. }
  assert (HDx : forall j, j < w -> (mget D1 3 j - exp (vget t (0 + j)) = ((exp dt - 1) / dt - 1) * exp (vget t (0 + j)))%R). { intros j Hj. rewrite HE by auto. rewrite Hstep by auto. rewrite exp_plus. cbn [Nat.add]. field. lra. }
  assert (HDy : forall j, j < w -> (mget D1 3 j - exp (vget t (1 + j)) = ((1 - exp (- dt)) / dt - 1) * exp (vget t (1 + j)))%R). { intros j Hj. rewrite HE by auto. rewrite Hstep by auto. rewrite exp_plus, exp_Ropp. assert (Hp := exp_pos dt). field. split; lra. }
  assert (Hpos : forall s, (0 < bsum w (fun j => Rsqr (exp (vget t (s + j)))))%R). { intros s. destruct w as [|w']; [lia|]. apply (Rlt_le_trans _ (Rsqr (exp (vget t (s + 0%nat))))); [apply Rlt_0_sqr, Rgt_not_eq, exp_pos|]. apply (bsum_term (S w') (fun j => Rsqr (exp (vget t (s + j))))); [intros; apply Rle_0_sqr|lia]. }
  exists errs, Q1, D1, (Rabs ((exp dt - 1) / dt - 1)), (Rabs ((1 - exp (- dt)) / dt - 1)). cbv zeta. fold t. split; [exact EV|]. split; [exact E1|]. split; [exact HP|]. split; [reflexivity|]. split; [|split].
  - unfold compared in HC. destruct (nth 3 errs None) as [x|] eqn:Ex; [|specialize (Hpos 0); lra]. destruct HC as (_ & ->).
    assert (E3 : nth_error errs 3 = Some (nth 3 errs None)) by (apply nth_error_nth'; rewrite HLe; cbn; lia). rewrite E3, Ex. do 2 f_equal.
    rewrite (bsum_ext w (fun j => Rsqr (mget D1 3 j - exp (vget t (0 + j)))) (fun j => Rsqr (((exp dt - 1) / dt - 1) * exp (vget t (0 + j))))%R) by (intros j Hj; rewrite HDx by auto; reflexivity).
    apply (scaled_error w (fun j => exp (vget t (0 + j)))); auto. intros; apply exp_pos.
  - unfold true_error. rewrite Hc2. split; [specialize (Hpos 1); lra|]. rewrite (bsum_ext w (fun j => Rsqr (mget D1 3 j - exp (vget t (1 + j)))) (fun j => Rsqr (((1 - exp (- dt)) / dt - 1) * exp (vget t (1 + j))))%R) by (intros j Hj; rewrite HDy by auto; reflexivity).
    symmetry. apply (scaled_error w (fun j => exp (vget t (1 + j)))); auto. intros; apply exp_pos.
  - assert (H2 := sinh_gt dt Hdt). assert (H3 := exp_ineq1 dt ltac:(lra)). assert (H4 := exp_ineq1 (- dt) ltac:(lra)).
    assert (Hi : (0 < / dt)%R) by (apply Rinv_0_lt_compat; auto). assert (Hid : (dt * / dt = 1)%R) by (apply Rinv_r; lra).
    rewrite Rabs_left1, Rabs_right; unfold Rdiv.
    + assert ((0 < (exp dt - exp (- dt) - 2 * dt) * / dt)%R) by (apply Rmult_lt_0_compat; lra). assert (((exp dt - exp (- dt) - 2 * dt) * / dt = (exp dt - 1) * / dt + (1 - exp (- dt)) * / dt - 2)%R) by (field; lra). lra.
    + assert ((0 < (exp dt - 1 - dt) * / dt)%R) by (apply Rmult_lt_0_compat; lra). assert (((exp dt - 1 - dt) * / dt = (exp dt - 1) * / dt - 1)%R) by (field; lra). lra.
    + assert ((0 < (exp (- dt) - 1 + dt) * / dt)%R) by (apply Rmult_lt_0_compat; lra). assert (((exp (- dt) - 1 + dt) * / dt = - ((1 - exp (- dt)) * / dt - 1))%R) by (field; lra). lra. Qed.

(* ---- an interpolator that is given as a class ---- *)
Lemma axis0_ok f t A : accepts f -> is_mat (length t) (length t) A -> 0 < length t -> exists sp, interp_of f 0 t (M A) = Ok sp /\ forall nu ts, exists B, sp nu ts = M B /\ is_mat (length ts) (length t) B.
Proof. intros HA HM Hk. unfold interp_of. change (0 mod 2 =? 1) with false. cbv iota. assert (HT := is_mat_mT _ _ A HM Hk). destruct HT as (HlT & HFT).
  assert (HG : exists gs, mapM (row_rule f t) (mT A) = Ok gs /\ length gs = length (mT A)).
  { clear HlT. induction HFT as [|row B Hrow HF IH]; [exists []; split; reflexivity|]. destruct IH as (gs & E & Hl). destruct (HA t row Hrow) as (g & Eg). exists (g :: gs). cbn [mapM]. unfold row_rule at 1. rewrite Hrow, Nat.eqb_refl. cbn [negb]. rewrite Eg. cbn [bind]. rewrite E. cbn [bind]. split; auto. cbn. lia. }
  destruct HG as (gs & E & Hl). rewrite E. cbn [bind]. eexists. split; [reflexivity|]. intros nu ts. eexists. split; [reflexivity|]. split; [apply map_length|]. apply Forall_forall. intros row Hr. apply in_map_iff in Hr. destruct Hr as (x & <- & _). rewrite map_length. lia. Qed.
Lemma axis0_bad f t r A : 0 < r -> 0 < length t -> is_mat r (length t) A -> r <> length t -> interp_of f 0 t (M A) = Err ValueError.
Proof. intros Hr Hk HQ Hne. unfold interp_of. change (0 mod 2 =? 1) with false. cbv iota. assert (HT := is_mat_mT r (length t) A HQ Hr). destruct HT as (HlT & HFT). destruct (mT A) as [|row B]; [cbn in HlT; lia|]. inversion HFT; subst.
  cbn [mapM]. unfold row_rule at 1. apply Nat.eqb_neq in Hne. rewrite Hne. reflexivity. Qed.

Lemma verify_not_restored f e npts dt dts Q U m : accepts f -> id_class e = interp_of f 0 -> length (id_time e) = 5 -> is_mat 5 5 Q -> 0 < m -> is_mat m 5 U -> 0 < npts -> npts <> 6 ->
  exists e', ide_verify npts (dt :: dts) Q U e = (e', Err ValueError) /\ id_time e' = vtimes npts dt /\ id_new e' = None.
Proof. intros HA HC H5 HQ Hm HU Hn H6. unfold ide_verify. set (e0 := {| id_time := id_time e; id_class := id_class e; id_new := None |}).
  destruct (axis0_ok f (id_time e) Q HA ltac:(rewrite H5; exact HQ) ltac:(lia)) as (sp & Esp & HB). destruct (HB 1 (id_time e)) as (D & ED & HD). rewrite H5 in HD.
  assert (E1 : ide_estimate e0 (M Q) None = Ok (Q, D, None)). { unfold ide_estimate, e0. cbn [id_time id_class id_new]. rewrite (ncols_is_mat 5 5 Q HQ), H5, Nat.eqb_refl by lia. cbn [negb check_inputs bind option_map]. rewrite HC, Esp. cbn [bind]. rewrite ED. reflexivity. }
  assert (E2 : ide_estimate e0 (M Q) (Some (M U)) = Ok (Q, D, Some (M U))). { unfold ide_estimate, check_inputs, e0. cbn [id_time id_class id_new]. rewrite (ncols_is_mat 5 5 Q HQ), H5, Nat.eqb_refl by lia. rewrite (ncols_is_mat m 5 U HU Hm), Nat.eqb_refl. cbn [negb bind option_map]. rewrite HC, Esp. cbn [bind]. rewrite ED. reflexivity. }
  assert (HG : good_shapes ide_estimate Q U e0). { exists Q, D, None, Q, D, U. rewrite (is_mat_nrows 5 5 D HD), (is_mat_nrows 5 5 Q HQ), (ncols_is_mat 5 5 D HD), (ncols_is_mat 5 5 Q HQ), (ncols_is_mat m 5 U HU) by lia. repeat split; auto. }
  unfold verify. apply shapes_ok in HG. rewrite HG. cbn [verify_steps]. unfold verify_step. cbv zeta. unfold ide_set, e0. cbn [id_class id_new].
  assert (HM := vstates_mat (vtimes npts dt)). assert (Hl := vtimes_length npts dt). set (t := vtimes npts dt) in *.
  assert (E3 : ide_estimate {| id_time := t; id_class := id_class e; id_new := None |} (M (vstates t)) None = Err ValueError).
  { unfold ide_estimate. cbn [id_time id_class id_new]. rewrite (ncols_is_mat 6 _ (vstates t) HM), Nat.eqb_refl by lia. cbn [negb check_inputs bind]. rewrite HC, (axis0_bad f t 6 (vstates t)) by (auto; lia). reflexivity. }
  rewrite E3. cbn [bind]. eexists. split; [reflexivity|]. split; reflexivity. Qed.

(* with as many rows as times there is no error, but the derivatives are those along the columns *)
Lemma class_wrong : exists (lib : icname -> rule) n e1 e2 Q D1 D2, meets_data (lib n) /\ (forall ts, differentiates (lib n) ts) /\
  ide_init lib (V [0; 1]%R) (ICName (Some n)) NNone = Ok e1 /\ ide_init lib (V [0; 1]%R) (ICClass (interp_of (lib n) 0)) NNone = Ok e2 /\ is_mat 2 2 Q /\
  ide_estimate e1 (M Q) None = Ok (Q, D1, None) /\ ide_estimate e2 (M Q) None = Ok (Q, D2, None) /\ D1 = [[1; 1]; [2; 2]]%R /\ D2 = [[5; 6]; [5; 6]]%R.
Proof. exists (fun _ => line_rule), Cubic, {| id_time := [0; 1]%R; id_class := interp_of line_rule 1; id_new := None |}, {| id_time := [0; 1]%R; id_class := interp_of line_rule 0; id_new := None |}, [[0; 1]; [5; 7]]%R. do 2 eexists.
  split; [apply line_meets|]. split; [apply line_diff|]. split; [reflexivity|]. split; [reflexivity|]. split; [split; [reflexivity|repeat constructor]|].
  split; [|split]; [| |split].
  - unfold ide_estimate, interp_of. cbn -[Rdiv Rminus Req_EM_T]. destruct (Req_EM_T 0 1); [lra|]. cbn -[Rdiv Rminus]. reflexivity.
  - unfold ide_estimate, interp_of. cbn -[Rdiv Rminus Req_EM_T]. destruct (Req_EM_T 0 1); [lra|]. cbn -[Rdiv Rminus]. reflexivity.
  - repeat (f_equal; try (field; fail)).
  - repeat (f_equal; try (field; fail)). Qed.

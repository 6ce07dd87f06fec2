(* BayesDiscrete.v -- fit_regselect_discrete and fit_regselect_continuous of a Bayesian reduced-order model. *)
From Coq Require Import ZArith Reals Lia Lra Permutation.
From Verif Require Import LinAlg MatAlg PreProofs SolverReg MonoSolver MonoFit MonoHist MonoFinal RomParts RomProofs RomFit RegselUpdate RegselDiscrete RegselContinuous.
From Verif Require Export BayesSelect BayesRom.
From Verif Require Import SpecBayes.
#[local] Open Scope nat_scope.

(* ---- arrays ---- *)
Lemma hstack_good l a : hstack_arr l = Ok a -> Forall good_arr l -> good_arr a.
Proof. destruct l as [|[v|A] l]; cbn [hstack_arr]; [discriminate| |].
  - destruct (as_vecs (V v :: l)) as [vs|] eqn:E; [|discriminate]. cbn [bind]. intros [= <-] HF. inversion HF as [|? ? Hv _]; subst. cbn in E. destruct (mapM _ l) as [t|]; [|discriminate]. injection E as <-. cbn in *. rewrite app_length. lia.
  - destruct (as_mats (M A :: l)) as [ms|] eqn:E; [|discriminate]. cbn [bind]. destruct (hstack_r ms) as [H|] eqn:EH; [|discriminate]. cbn [bind]. intros [= <-] HF.
    apply AffProofs.mapM_Forall2 in E. assert (HM : Forall (fun m => good_arr (M m)) ms) by (clear - E HF; revert E HF; generalize (M A :: l); intros l0 E; induction E as [|a m l1 ms Ea E IH]; intros HF; inversion HF; subst; constructor; auto; destruct a; [discriminate|]; injection Ea as ->; auto).
    clear E HF. destruct ms as [|B ms]; [discriminate|]. cbn [hstack_r] in EH. destruct (forallb _ ms) eqn:EF; [|discriminate]. injection EH as <-. inversion HM as [|? ? (r & c & Hr & Hc & HB) HM']; subst. rewrite (is_mat_nrows r c B HB) in EF.
    assert (HL : exists ks, blocks r ks ms). { clear - EF HM' Hr. induction HM' as [|m ms (r' & c' & Hr' & Hc' & Hm) HM IH]; [exists []; constructor|]. cbn in EF. apply Bool.andb_true_iff in EF. destruct EF as [E1 E2]. apply Nat.eqb_eq in E1. rewrite (is_mat_nrows _ _ _ Hm) in E1. subst r'. destruct (IH E2) as (ks & Hks). exists (c' :: ks). constructor; auto. }
    destruct HL as (ks & Hks). exists r, (lsumn (c :: ks)). split; auto. split; [cbn; lia|]. apply (is_mat_hstack r (c :: ks) (B :: ms)); [constructor; auto|discriminate]. Qed.
Lemma cut_good k a : 0 < k -> good_arr a -> good_arr (cut k a).
Proof. intros Hk. destruct a as [v|A]; cbn [cut good_arr]. - rewrite firstn_length. lia. - intros (r & c & Hr & Hc & [H1 H2]). exists r, (Nat.min k c). split; auto. split; [lia|]. split; [rewrite map_length; auto|].
    apply Forall_map. eapply Forall_impl; [|exact H2]. cbn beta. intros x Hx. rewrite firstn_length, Hx. auto. Qed.
Lemma reset_winv X s : winv X s -> winv X (lsq_reset s).
Proof. destruct s; cbn [winv lsq_reset]; auto; intros _; try constructor; cbn; intros; discriminate. Qed.
Lemma prepared_ready LX r r1 ft fb Qs Zs Us es : lsx_ok LX -> reach LX (rm_model r) -> m_frozen (rm_model r) = false -> m_intrusive (rm_model r) = false ->
  prepared LX (reset_solver r) r1 ft fb Qs Zs Us es -> good_contributions (rm_parts r1) (rm_ddt r1) (rm_cont r) Qs Zs Us -> exists p m s D Z, ready LX (rm_model r1) p m s D Z.
Proof. intros HX HR Hf Hi (ds & us & Q & L & U & _ & HC & EQ & EL & EU & EF & ED) HG. cbn [reset_solver rom_with rm_ddt rm_cont rm_model with_solver] in *.
  assert (HC' : contributions (rm_parts r1) (rm_ddt r1) (rm_cont r) Qs Zs Us es ds us) by (rewrite ED; exact HC). destruct (HG _ _ _ HC') as (G1 & G2 & G3). assert (H := reach_minv LX _ HX HR).
  assert (HI := mi_s _ _ H). set (d := with_solver (option_map lsq_reset (m_solver (rm_model r))) (rm_model r)) in *.
  assert (HI' : sinv d) by (destruct HI; constructor; cbn; auto).
  assert (HW : forall s, m_solver d = Some s -> winv LX s). { cbn. intros s Es. destruct (m_solver (rm_model r)) as [z|] eqn:Ez; [|discriminate]. cbn in Es. injection Es as <-. apply reset_winv. apply (mi_w _ _ H). auto. }
  destruct (fit_solver_inv LX d Q L U (rm_model r1) (Ok tt) HX HI' Hf Hi HW (hstack_good _ _ EQ G1) (hstack_good _ _ EL G2)) as (_ & _ & _ & _ & K); auto.
  - destruct us as [l|]; cbn [hstack_opt] in EU; [|injection EU as <-; cbn; auto]. destruct (hstack_arr l) as [u|] eqn:E; [|discriminate]. cbn [bind] in EU. injection EU as <-. cbn. eapply hstack_good; eauto.
  - destruct (K eq_refl) as (_ & p & m & k & U' & HF). destruct (fitted_ready _ _ _ _ _ _ _ _ _ HF) as (mm & s & D & Z & HR'). eauto 8. Qed.
Lemma good_discrete n0 n p P D Qs Us ks : trained_parts n p P -> columnwise_lifter n0 n (rp_lift P) -> blocks n0 ks Qs -> Forall (lt 1) ks -> 0 < p -> (forall l, Us = Some l -> Forall good_arr l) ->
  same_length (map M Qs) Us -> good_contributions P D false (map M Qs) None Us.
Proof. intros HP HL HB Hk Hp HU HSl es ds us HC. destruct HC as (L1 & L2 & L3 & L4 & HI). rewrite map_length in *. assert (HLk := F2_length _ _ _ HB). assert (EC := encode_columns n0 n p _ HP HL).
  assert (K : forall i, i < length Qs -> exists C, is_mat p (nth i ks 0) C /\ 1 < nth i ks 0 /\ nth i es dfl = M (map (@removelast R) C) /\ nth i ds dfl = M (map (@tl R) C) /\ nth_opt us i = option_map (cut (nth i ks 0 - 1)) (nth_opt Us i)).
  { intros i Hi. specialize (HI i Hi). cbn [nth_opt option_map] in HI. destruct HI as (c & Ec & C & -> & H1 & H2 & H3). rewrite encode_cont_none in Ec. destruct (encode1 P (nth i (map M Qs) dfl)) as [c|] eqn:Ec'; [|discriminate]. injection Ec as ->. rewrite (nth_map_in _ Qs i dfl []) in Ec' by auto.
    assert (HM : is_mat n0 (nth i ks 0) (nth i Qs [])) by (apply (Forall2_nth_iff (fun c M => is_mat n0 c M) ks Qs 0 []); auto; lia).
    destruct (EC (nth i ks 0) (M (nth i Qs [])) HM _ Ec') as (SE & _ & _). exists C. cbn in SE. split; auto. split; [apply (proj1 (Forall_nth (lt 1) ks) Hk); lia|]. split; auto. split; auto.
    rewrite H3. unfold nth_opt. rewrite (ncols_is_mat p (nth i ks 0 - 1)); auto. apply is_mat_removelast. auto. }
  assert (Htl : forall C k, is_mat p k C -> is_mat p (k - 1) (map (@tl R) C)). { intros C k [H1 H2]. split; [rewrite map_length; auto|]. apply Forall_map. eapply Forall_impl; [|exact H2]. cbn beta. intros x Hx. destruct x; cbn in *; lia. }
  split; [|split].
  - apply (Forall_nth _ es). intros i d Hi. rewrite (nth_indep es d dfl) by auto. destruct (K i ltac:(lia)) as (C & K1 & K2 & -> & _). exists p, (nth i ks 0 - 1). split; auto. split; [lia|]. now apply is_mat_removelast.
  - apply (Forall_nth _ ds). intros i d Hi. rewrite (nth_indep ds d dfl) by auto. destruct (K i ltac:(lia)) as (C & K1 & K2 & _ & -> & _). exists p, (nth i ks 0 - 1). split; auto. split; [lia|]. auto.
  - intros l ->. specialize (L4 l eq_refl). destruct Us as [lu|]; [|destruct L3 as [_ L3]; specialize (L3 eq_refl); discriminate]. specialize (HU lu eq_refl). specialize (HSl lu eq_refl). rewrite map_length in HSl.
    apply (Forall_nth _ l). intros i d Hi. rewrite (nth_indep l d (V [])) by auto. destruct (K i ltac:(lia)) as (C & K1 & K2 & _ & _ & K3). cbn in K3. injection K3 as ->. apply cut_good; [lia|]. apply (proj1 (Forall_nth good_arr lu) HU). lia. Qed.

(* ---- the mean of the draws ---- *)
Lemma fsum_F l : forall a y, fold_left fadd l (F a) = F y <-> exists xs, l = map F xs /\ y = (a + lsum xs)%R.
Proof. induction l as [|x l IH]; intros a y; cbn [fold_left].
  - split; [intros [= ->]; exists []; unfold lsum; cbn; split; auto; lra|]. intros (xs & E & ->). destruct xs; [|discriminate]. unfold lsum; cbn. f_equal. lra.
  - assert (Hbad : forall z, (forall q, z <> F q) -> fold_left fadd l z <> F y).
    { clear. induction l as [|x l IH]; cbn; auto. intros z Hz. apply IH. destruct z; [exfalso; eapply Hz; eauto| | |]; cbn; discriminate. }
    destruct x as [x| | |]; cbn [fadd].
    + rewrite IH. split; intros (xs & E & ->). { exists (x :: xs). split; [cbn; f_equal; auto|]. unfold lsum; cbn. lra. } { destruct xs as [|z xs]; [discriminate|]. injection E as <- ->. exists xs. split; auto. unfold lsum; cbn. lra. }
    + split; [intros E; exfalso; revert E; apply Hbad; discriminate|intros (xs & E & _); destruct xs; discriminate].
    + split; [intros E; exfalso; revert E; apply Hbad; discriminate|intros (xs & E & _); destruct xs; discriminate].
    + split; [intros E; exfalso; revert E; apply Hbad; discriminate|intros (xs & E & _); destruct xs; discriminate]. Qed.
Lemma fmean_F l y : fdivn (fsum l) (length l) = F y <-> exists xs, l = map F xs /\ y = (lsum xs / INR (length l))%R.
Proof. unfold fsum. destruct (fold_left fadd l (F 0)) as [z| | |] eqn:E; cbn [fdivn].
  - apply fsum_F in E. destruct E as (xs & -> & ->). rewrite Rplus_0_l. split; [intros [= <-]; eauto|]. intros (xs' & E & ->). assert (xs' = xs) as ->; auto. clear - E. revert xs' E. induction xs as [|a xs IH]; intros [|b xs'] E; try discriminate; auto. injection E as -> E. f_equal. auto.
  - split; [discriminate|]. intros (xs & -> & _). exfalso. assert (K : fold_left fadd (map F xs) (F 0) = F (0 + lsum xs)%R) by (apply fsum_F; eauto). congruence.
  - split; [discriminate|]. intros (xs & -> & _). exfalso. assert (K : fold_left fadd (map F xs) (F 0) = F (0 + lsum xs)%R) by (apply fsum_F; eauto). congruence.
  - split; [discriminate|]. intros (xs & -> & _). exfalso. assert (K : fold_left fadd (map F xs) (F 0) = F (0 + lsum xs)%R) by (apply fsum_F; eauto). congruence. Qed.
Definition shaped (n w : nat) (s : sol) : Prop := length s = n /\ Forall (fun row => length row = w) s.
Lemma shaped_same n w a b : shaped n w a -> shaped n w b -> same_shape_sol a b = true.
Proof. intros [A1 A2] [B1 B2]. unfold same_shape_sol. rewrite A1, B1, Nat.eqb_refl. cbn. clear A1 B1. revert b B2. induction A2 as [|x a Hx A2 IH]; intros b B2; destruct B2 as [|y b Hy B2]; cbn; auto. rewrite Hx, Hy, Nat.eqb_refl. cbn. auto. Qed.
Lemma fentry_firstn k z i j : j < k -> fentry (map (firstn k) z) i j = fentry z i j.
Proof. intros Hj. unfold fentry. replace (@nil fnum) with (firstn k (@nil fnum)) at 1 by (now rewrite firstn_nil). rewrite map_nth. apply nth_firstn_lt. auto. Qed.
Lemma mean_draws_ok n w k ss : Forall (shaped n w) ss -> k <= w -> ss <> [] -> exists m, mean_draws k ss = Ok m /\ shaped n k m /\ forall i j, i < n -> j < k -> fentry m i j = fdivn (fsum (map (fun z => fentry z i j) ss)) (length ss).
Proof. intros HF Hk Hne. unfold mean_draws. assert (HS : Forall (shaped n k) (map (map (firstn k)) ss)).
  { apply Forall_map. eapply Forall_impl; [|exact HF]. cbn beta. intros s [S1 S2]. split; [rewrite map_length; auto|]. apply Forall_map. eapply Forall_impl; [|exact S2]. cbn beta. intros row Hr. rewrite firstn_length. lia. }
  destruct ss as [|s ss]; [congruence|]. cbn [map]. cbn [map] in HS. inversion HS as [|? ? H1 H2]; subst. replace (forallb (same_shape_sol (map (firstn k) s)) (map (map (firstn k)) ss)) with true.
  2:{ symmetry. apply forallb_forall. intros z Hz. rewrite Forall_forall in H2. eapply shaped_same; eauto. } cbn [negb]. eexists. split; [reflexivity|]. destruct H1 as [L1 L2]. split.
  - split; [rewrite map_length, seq_length; auto|]. apply Forall_map. apply Forall_forall. intros i Hi. apply in_seq in Hi. rewrite map_length, seq_length. apply (proj1 (Forall_nth _ _) L2). lia.
  - intros i j Hi Hj. unfold fentry at 1. rewrite L1. rewrite (nth_map_in _ (seq 0 n) i [] 0) by (rewrite seq_length; auto). rewrite seq_nth by auto. cbn [Nat.add].
    assert (Hrow : length (nth i (map (firstn k) s) []) = k) by (apply (proj1 (Forall_nth _ _) L2); lia). rewrite Hrow. rewrite (nth_map_in _ (seq 0 k) j _ 0) by (rewrite seq_length; auto). rewrite seq_nth by auto. cbn [Nat.add].
    assert (HE : map (fun z => fentry z i j) (map (firstn k) s :: map (map (firstn k)) ss) = map (fun z => fentry z i j) (s :: ss)). { change (map (firstn k) s :: map (map (firstn k)) ss) with (map (map (firstn k)) (s :: ss)). rewrite map_map. apply map_ext. intros z. apply fentry_firstn. auto. }
    cbn [map] in HE |- *. rewrite HE. cbn [length]. rewrite map_length. reflexivity. Qed.
Lemma mean_draws_ne k ss m : mean_draws k ss = Ok m -> ss <> [].
Proof. intros E ->. discriminate. Qed.
Lemma lsum_list xs : lsum xs = bsum (length xs) (fun a => nth a xs 0%R).
Proof. apply lsum_nth. Qed.
Lemma mean_entries n k ss m : ss <> [] -> (forall i j, i < n -> j < k -> fentry m i j = fdivn (fsum (map (fun z => fentry z i j) ss)) (length ss)) ->
  ((forall i j, i < n -> j < k -> exists y, fentry m i j = F y) <-> mean_of n k ss m).
Proof. intros Hne HM. split.
  - intros HF. split; [destruct ss; cbn; [congruence|lia]|]. intros i j Hi Hj. destruct (HF i j Hi Hj) as (y & Ey). rewrite (HM i j Hi Hj) in Ey. rewrite <- (map_length (fun z => fentry z i j) ss) in Ey. apply fmean_F in Ey. destruct Ey as (xs & Exs & ->).
    assert (HL : length xs = length ss) by (apply (f_equal (@length _)) in Exs; rewrite !map_length in Exs; auto). exists (fun a => nth a xs 0%R). split.
    + intros a Ha. transitivity (nth a (map (fun z => fentry z i j) ss) (fentry [] i j)); [symmetry; apply (map_nth (fun z => fentry z i j))|]. rewrite Exs. rewrite (nth_indep _ _ (F 0)) by (rewrite map_length, HL; exact Ha). apply map_nth.
    + rewrite (HM i j Hi Hj). rewrite <- (map_length (fun z => fentry z i j) ss) at 1. apply fmean_F. exists xs. split; auto. rewrite map_length. rewrite lsum_list, HL. auto.
  - intros (_ & HE) i j Hi Hj. destruct (HE i j Hi Hj) as (f & _ & ->). eauto. Qed.
Lemma mean_agree n k ss m m' : ss <> [] -> (forall i j, i < n -> j < k -> fentry m i j = fdivn (fsum (map (fun z => fentry z i j) ss)) (length ss)) -> mean_of n k ss m' -> forall i j, i < n -> j < k -> fentry m i j = fentry m' i j.
Proof. intros Hne HM (_ & HE) i j Hi Hj. destruct (HE i j Hi Hj) as (f & Hf & ->). rewrite (HM i j Hi Hj). rewrite <- (map_length (fun z => fentry z i j) ss) at 1. apply fmean_F. exists (map f (seq 0 (length ss))). split.
  - apply (nth_ext _ _ (fentry [] i j) (F 0)); [rewrite !map_length, seq_length; auto|]. intros a Ha. rewrite map_length in Ha. rewrite (map_nth (fun z => fentry z i j)). rewrite Hf by auto. rewrite (map_nth F (map f (seq 0 (length ss))) 0%R). f_equal. rewrite (nth_map_in f (seq 0 (length ss)) a 0%R 0) by (rewrite seq_length; auto). rewrite seq_nth; auto.
  - rewrite map_length. f_equal. rewrite lsum_list, map_length, seq_length. apply bsum_ext. intros a Ha. rewrite (nth_map_in f (seq 0 (length ss)) a 0%R 0) by (rewrite seq_length; auto). rewrite seq_nth; auto. Qed.

Lemma Forall2_impl {A B} (P Q : A -> B -> Prop) l l' : (forall a b, P a b -> Q a b) -> Forall2 P l l' -> Forall2 Q l l'.
Proof. intros H. induction 1; constructor; auto. Qed.
(* ---- a trajectory ---- *)
Lemma dcase_val PR margin nt n k E u c ds x : steps_well PR -> (0 <= nt)%Z -> 0 < n -> is_mat n k E -> dcase PR margin nt E u = Ok c ->
  (case_val (ncols E, c) ds (F x) <-> fits_discrete PR margin n nt (E, u) ds x).
Proof. intros HPR Hnt Hn HE. unfold dcase. destruct (limit_of margin E) as [lim|] eqn:El; [|discriminate]. cbn [bind]. intros [= <-]. unfold case_val, fits_discrete. cbn [fst snd sc_predict sc_unstable sc_error].
  assert (En : nrows E = n) by apply HE. rewrite En. rewrite (ncols_is_mat n k E HE Hn).
  assert (HX : forall d s, PR d (V (colv n E 0)) (Z.of_nat k + nt)%Z u = Ok s -> shaped n (k + Z.to_nat nt) s).
  { intros d s Es. destruct (HPR _ _ _ _ _ Es) as [H1 H2]. rewrite length_colv in H1. replace (k + Z.to_nat nt) with (Z.to_nat (Z.of_nat k + nt)) by lia. split; auto. }
  assert (HS : forall d s, (PR d (V (colv n E 0)) (Z.of_nat k + nt)%Z u = Ok s /\ sel_unstable_discrete E lim s = false) <-> (continues_discrete PR d n E u nt s /\ within_margin margin n k E (k + Z.to_nat nt) s)).
  { intros d s. unfold continues_discrete. rewrite (ncols_is_mat n k E HE Hn). split; intros [H1 H2]; (split; [exact H1|]); destruct (HX d s H1) as [S1 S2]; apply (stable_margin margin n k E _ s lim HE El S1 S2); auto. }
  assert (HSS : forall ss, Forall2 (fun d s => continues_discrete PR d n E u nt s /\ within_margin margin n k E (k + Z.to_nat nt) s) ds ss -> Forall (shaped n (k + Z.to_nat nt)) ss).
  { intros ss H. induction H as [|d s ds0 ss [H1 _] H IH]; constructor; auto. unfold continues_discrete in H1. rewrite (ncols_is_mat n k E HE Hn) in H1. eauto. }
  assert (HF2 : forall ss, Forall2 (stays {| sc_predict := fun m : model => PR m (V (colv n E 0)) (Z.of_nat k + nt)%Z u; sc_unstable := sel_unstable_discrete E lim; sc_error := error_discrete E |}) ds ss <->
    Forall2 (fun d s => continues_discrete PR d n E u nt s /\ within_margin margin n k E (k + Z.to_nat nt) s) ds ss).
  { intros ss. split; intros H; (eapply Forall2_impl; [|exact H]); intros d s; unfold stays; cbn [sc_predict sc_unstable]; apply HS. }
  split.
  - intros (ys & HF & Ex). apply HF2 in HF. destruct (mean_draws k ys) as [m|] eqn:Em; [|discriminate]. cbn [bind] in Ex. assert (Hne := mean_draws_ne _ _ _ Em). destruct (mean_draws_ok n (k + Z.to_nat nt) k ys (HSS ys HF) ltac:(lia) Hne) as (m' & Em' & HSm & HM). rewrite Em in Em'. injection Em' as <-.
    destruct HSm as [M1 M2]. apply (error_spec n k k E m x) in Ex; auto. exists ys, m. split; auto. split; auto. apply (mean_entries n k ys m Hne HM). intros i j Hi Hj. destruct Ex as (Y & _ & HY & _). rewrite HY by auto. eauto.
  - intros (ss & m & HF & HM & Hx). assert (Hne : ss <> []) by (destruct HM as [HM _]; destruct ss; cbn in HM; [lia|discriminate]). exists ss. split; [apply HF2; auto|]. destruct (mean_draws_ok n (k + Z.to_nat nt) k ss (HSS ss HF) ltac:(lia) Hne) as (m' & -> & [M1 M2] & HM'). cbn [bind].
    apply (error_spec n k k E m' x); auto. destruct Hx as (Y & H1 & H2 & H3). exists Y. split; auto. split; auto. intros i j Hi Hj. rewrite (mean_agree n k ss m' m Hne HM' HM) by auto. auto. Qed.
Lemma ccase_val PR margin n c case ds x : solves_well PR -> 0 < n -> scorable n c -> ccase PR margin (cj_data c) (cj_input c) (cj_times c) = Ok case ->
  (case_val (ncols (cj_data c), case) ds (F x) <-> fits_continuous PR margin n c ds x).
Proof. intros HPR Hn (k & Hk & HE & Ht & HO). unfold ccase. destruct (limit_of margin (cj_data c)) as [lim|] eqn:El; [|discriminate]. cbn [bind]. intros [= <-]. unfold case_val, fits_continuous. cbn [fst snd sc_predict sc_unstable sc_error].
  assert (En : nrows (cj_data c) = n) by apply HE. rewrite En. rewrite (ncols_is_mat n k _ HE Hn).
  assert (HX : forall d s, PR d (V (colv n (cj_data c) 0)) (cj_times c) (cj_input c) = Ok s -> length s = n /\ exists w, Forall (fun row => length row = w) s).
  { intros d s Es. destruct (HPR _ _ _ _ _ Es) as [H1 H2]. rewrite length_colv in H1. auto. }
  assert (HF2 : forall d s, stays {| sc_predict := fun m : model => PR m (V (colv n (cj_data c) 0)) (cj_times c) (cj_input c); sc_unstable := sel_unstable_continuous (length (cj_times c)) (cj_data c) lim; sc_error := error_continuous (cj_times c) (cj_data c) |} d s <->
    continues_continuous PR d n c s /\ not_seen_outside margin n k (cj_data c) (length (cj_times c)) s).
  { intros d s. unfold stays, continues_continuous. cbn [sc_predict sc_unstable]. split.
    - intros [Es Eu]. destruct (HX d s Es) as [H1 H2]. apply (stable_margin_c margin n k _ _ s lim HE El H1 H2) in Eu. tauto.
    - intros [[Es HC] Hw]. destruct (HX d s Es) as [H1 H2]. split; auto. apply (stable_margin_c margin n k _ _ s lim HE El H1 H2); auto. }
  assert (HSS : forall ss, Forall2 (fun d s => continues_continuous PR d n c s /\ not_seen_outside margin n k (cj_data c) (length (cj_times c)) s) ds ss -> Forall (shaped n (length (cj_times c))) ss).
  { intros ss H. induction H as [|d s ds0 ss [[H1 HC] _] H IH]; constructor; auto. destruct (HX d s H1). split; auto. }
  split.
  - intros (ys & HF & Ex). assert (HF' : Forall2 (fun d s => continues_continuous PR d n c s /\ not_seen_outside margin n k (cj_data c) (length (cj_times c)) s) ds ys) by (eapply Forall2_impl; [|exact HF]; intros d s; apply HF2).
    destruct (mean_draws k ys) as [m|] eqn:Em; [|discriminate]. cbn [bind] in Ex. assert (Hne := mean_draws_ne _ _ _ Em). destruct (mean_draws_ok n (length (cj_times c)) k ys (HSS ys HF') Ht Hne) as (m' & Em' & HSm & HM). rewrite Em in Em'. injection Em' as <-.
    destruct HSm as [M1 M2]. apply (error_c_spec n k k (cj_times c) (cj_data c) m x) in Ex; auto. exists ys, m. split; auto. split; auto. apply (mean_entries n k ys m Hne HM). intros i j Hi Hj. destruct Ex as (Y & a & b & _ & HY & _). rewrite HY by auto. eauto.
  - intros (ss & m & HF & HM & Hx). assert (Hne : ss <> []) by (destruct HM as [HM _]; destruct ss; cbn in HM; [lia|discriminate]). exists ss. split; [eapply Forall2_impl; [|exact HF]; intros d s; apply HF2|]. destruct (mean_draws_ok n (length (cj_times c)) k ss (HSS ss HF) Ht Hne) as (m' & -> & [M1 M2] & HM'). cbn [bind].
    apply (error_c_spec n k k (cj_times c) (cj_data c) m' x); auto. destruct Hx as (Y & a & b & H1 & H2 & H3). exists Y, a, b. split; auto. split; auto. intros i j Hi Hj. rewrite (mean_agree n k ss m' m Hne HM' HM) by auto. auto. Qed.

(* ---- from the tests and cases of the program to those of the specification ---- *)
Lemma acceptable_iff tests tests' cases cases' N total ds e : Forall2 (fun t t' => forall d : model, t d <-> t' d) tests tests' -> Forall2 (fun c c' => forall l x, c l x <-> c' l x) cases cases' ->
  acceptable tests cases N total ds e -> acceptable tests' cases' N total ds e.
Proof. intros HT HC (T & D & xs & E & H1 & H2 & H3 & H4). exists T, D, xs. split; auto. split; [|split; auto; split; auto].
  - clear - HT H1. revert T H1. induction HT as [|t t' ts ts' Ht HT IH]; intros T H1; inversion H1 as [|? l ? T' [Hl HF]]; subst; constructor; auto. split; auto. eapply Forall_impl; [|exact HF]. intros d. apply Ht.
  - clear - HC H3. revert H3. generalize (combine D xs). induction HC as [|c c' cs cs' Hc HC IH]; intros l H3; inversion H3 as [|? y ? l' [Hl HF]]; subst; constructor; auto. split; auto. apply Hc. auto. Qed.
Lemma F2_flip {A B} (P : A -> B -> Prop) l l' : Forall2 P l l' -> Forall2 (fun b a => P a b) l' l.
Proof. induction 1; constructor; auto. Qed.
Section Iff.
  Context {G : Type}.
  Variables (normal : vec -> mat -> G -> G * vec) (LX : lsx) (MX : mvn) (factory : param -> res sreg) (d0 : model).
  Variables (tests tests' : list (model -> Prop)) (cases cases' : list (list model -> R -> Prop)) (N total : nat).
  Hypotheses (HT : Forall2 (fun t t' => forall d, t d <-> t' d) tests tests') (HC : Forall2 (fun c c' => forall l x, c l x <-> c' l x) cases cases').
  Lemma trials_iff h L h' : trials normal LX MX factory d0 tests cases N total h L h' -> trials normal LX MX factory d0 tests' cases' N total h L h'.
  Proof. assert (HT' : Forall2 (fun t t' => forall d, t d <-> t' d) tests' tests) by (apply F2_flip; eapply Forall2_impl; [|exact HT]; cbn beta; intros t t' Ht d; symmetry; apply Ht).
    assert (HC' : Forall2 (fun c c' => forall l x, c l x <-> c' l x) cases' cases) by (apply F2_flip; eapply Forall2_impl; [|exact HC]; cbn beta; intros t t' Ht l x; symmetry; apply Ht).
    assert (HS : forall p h e h', succeeds normal LX MX factory d0 tests cases N total p h e h' -> succeeds normal LX MX factory d0 tests' cases' N total p h e h').
    { intros p k e k' (d & q & ds & A1 & A2 & A3 & A4). exists d, q, ds. repeat (split; auto). eapply acceptable_iff; eauto. }
    assert (HS' : forall p h e h', succeeds normal LX MX factory d0 tests' cases' N total p h e h' -> succeeds normal LX MX factory d0 tests cases N total p h e h').
    { intros p k e k' (d & q & ds & A1 & A2 & A3 & A4). exists d, q, ds. repeat (split; auto). eapply acceptable_iff; eauto. }
    induction 1 as [|k p e k1 L k' H1 H2 IH|k p k1 L k' H1 H2 IH]; [constructor|eapply tr_ok; eauto|eapply tr_no; eauto]. destruct H1 as [H1 H1']. split; auto. intros e k2 HSu. eapply H1; eauto. Qed.
End Iff.

(* ---- the selection ---- *)
Section Selection.
  Context {G : Type}.
  Variable normal : vec -> mat -> G -> G * vec.
  Hypothesis HN : keeps_size normal.
  Variables (LX : lsx) (MX : mvn).
  Hypotheses (HX : lsx_ok LX) (HM : inverts MX).
  Lemma chosen d0 r m s0 D Z factory p d q b (st' : bstate G) : ready LX d0 r m s0 D Z -> (forall p g, factory p = Ok g -> valid_reg g) -> with_candidate factory d0 p d -> posterior_of LX MX d = Ok q -> bs_post st' = Some q -> akin d (bs_model st') ->
    selected normal d q (brom_of b st').
  Proof. intros HR HG HC HQ Ep HA. destruct (candidate_ready LX factory d0 r m s0 D Z HR HG p d HC) as (s & HRd). destruct (ready_posterior LX MX d r m s D Z q HX HM HRd HQ) as (H1 & _).
    assert (Es : m_solver (bs_model st') = Some s) by (destruct HA as (l & -> & _); cbn; apply (rd_s _ _ _ _ _ _ _ HRd)).
    split; [cbn; auto|]. split. { exists s. split; auto. split; auto. apply (rd_s _ _ _ _ _ _ _ HRd). } intros g. destruct st' as [d1 q1 g1]. cbn [bs_post bs_model brom_of br_rom rom_with rm_model br_post] in *. subst q1.
    destruct (draw_ok normal HN LX MX d r m s D Z q HX HM HRd HQ d1 g HA) as (A & g' & d2 & E & K1 & K2 & _). unfold draw_operators, bstate_of. cbn [brom_of br_rom rom_with rm_model br_post bs_model bs_post]. rewrite E. eexists A, g', _. split; [reflexivity|]. cbn. auto. Qed.

  Theorem discrete_selects PR bounded nm b g c T ft fb factory only ntest margin N tests b' g' Qs Us n0 n p ks :
    steps_well PR -> (forall x y, honest [] (bounded x y)) -> (forall x, honest [] (nm x)) -> (forall q h, factory q = Ok h -> valid_reg h) ->
    reach LX (rm_model (br_rom b)) -> m_frozen (rm_model (br_rom b)) = false -> m_intrusive (rm_model (br_rom b)) = false ->
    trajectories_of T (map M Qs) None Us -> (forall l, Us = Some l -> Forall good_arr l) -> blocks n0 ks Qs -> Forall (lt 1) ks -> 0 < p ->
    trained_parts n p (rm_parts (br_rom b')) -> columnwise_lifter n0 n (rp_lift (rm_parts (br_rom b'))) ->
    bayes_discrete normal LX MX PR bounded nm b g c T ft fb factory only ntest margin N tests = (b', g', Ok tt) ->
    exists r1 Es L1 L2 q e d post, prepared LX (reset_solver (br_rom b)) r1 ft fb (map M Qs) None Us (map M Es) /\ rm_parts (br_rom b') = rm_parts r1 /\ rm_ddt (br_rom b') = rm_ddt r1 /\
      Forall2 (fun k E => is_mat p (k - 1) E) ks Es /\ Forall2 (fun Q E => exists C, encode1 (rm_parts r1) (M Q) = Ok (M C) /\ E = map (@removelast R) C) Qs Es /\
      trials normal LX MX factory (rm_model r1) (map (fun t d => passes_discrete PR (rm_parts r1) d t) tests) (map (fits_discrete PR margin p ntest) (combine Es (inputs_for (length Es) Us))) N (length Es) g (L1 ++ L2) g' /\
      Permutation (points c) (map fst L1) /\ (only = true -> L2 = []) /\ In (q, Some e) (L1 ++ L2) /\ (forall q' e', In (q', Some e') L1 -> (e <= e')%R) /\
      with_candidate factory (rm_model r1) q d /\ posterior_of LX MX d = Ok post /\ selected normal d post b'.
  Proof. intros HPR Hb Hn HG HRe Hf Hi HT HUg HB Hk Hp HP HC E. unfold bayes_discrete in E. destruct (rm_cont (br_rom b)) eqn:Econt; [discriminate|].
    destruct (fix_single T) as [[[Qs' Zs'] Us']|] eqn:EF; [|discriminate]. destruct (fix_single_sym _ _ _ _ _ _ _ HT EF) as (-> & -> & ->). cbn [bind guard] in E.
    destruct (Z.ltb_spec ntest 0) as [|Hnt]; [discriminate|]. destruct (dinputs_ok ntest (map M Qs) Us) as [[]|] eqn:ED; [|discriminate]. cbn [bind] in E.
    destruct (rom_fit_with (fit_solver LX) (reset_solver (br_rom b)) (Several (map M Qs) None Us) ft fb) as [r1 [es|]] eqn:E1; [|discriminate].
    destruct (do Es <- mapM as_mat_r es; _) as [[ts cs]|] eqn:E2; [|discriminate]. destruct (bselect _ _ _ _ _ _ _ _ _ _ _ _ _) as [st x] eqn:E3. injection E as <- <- ->.
    cbn [brom_of br_rom rom_with rm_parts rm_ddt] in HP, HC |- *. assert (HL := same_length_ok _ _ _ ED).
    assert (HPr := first_fit_ok _ _ _ _ _ _ _ _ _ (fun l (H : None = Some l) => match H with eq_refl => I end) HL E1). assert (HPr' := HPr). destruct HPr' as (ds & us & Q & L & U & _ & F2 & _). replace (rm_cont (reset_solver (br_rom b))) with false in F2 by (rewrite <- Econt; reflexivity).
    destruct (discrete_data n0 n p _ _ _ _ _ _ _ _ F2 HB HP HC) as (Es & -> & HE1 & HE2). rewrite as_mats_r in E2. cbn [bind] in E2. rewrite map_length in E3.
    assert (HLu : length (inputs_for (length Es) Us) = length Es). { apply inputs_for_length. intros l El. rewrite (HL l El), map_length. rewrite (F2_length _ _ _ HE2). auto. }
    destruct (mapM (fun Qu => dcase PR margin ntest (fst Qu) (snd Qu)) (combine Es (inputs_for (length Es) Us))) as [cs'|] eqn:E4; [|discriminate]. cbn [bind] in E2.
    destruct (mapM (process_dtest PR (rm_parts r1)) tests) as [ts'|] eqn:E5; [|discriminate]. cbn [bind] in E2. injection E2 as -> <-.
    destruct (prepared_ready LX (br_rom b) r1 ft fb _ None Us _ HX HRe Hf Hi HPr) as (r & m & s0 & D & Z & HR0). { rewrite Econt. eapply good_discrete; eauto. }
    destruct (bselect_ok normal HN LX MX HX HM factory (rm_model r1) r m s0 D Z HR0 HG ts _ N (length Es) bounded nm only c (br_post b) g st Hb Hn E3) as (L1 & L2 & q & e & d & post & T1 & T2 & T3 & T4 & T5 & T6 & T7 & T8 & T9).
    exists r1, Es, L1, L2, q, e, d, post. do 5 (split; [solve [auto]|]). split; [|do 6 (split; [solve [auto]|]); eapply chosen; eauto].
    eapply trials_iff; [| |exact T1].
    - unfold BayesSelect.TS. apply AffProofs.mapM_Forall2 in E5. clear - E5 HPR. induction E5 as [|t t' l l' Et H IH]; cbn [map]; constructor; auto. intros d. apply (test_spec PR HPR (rm_parts r1) d t t' Et).
    - unfold BayesSelect.CS. apply AffProofs.mapM_Forall2 in E4. clear - E4 HPR HE1 Hnt Hp HLu. revert E4 HLu. generalize (inputs_for (length Es) Us). intros us E4 HLu. revert us cs' E4 HLu. induction HE1 as [|k E ks Es HE HE1 IH]; intros [|u us] cs' E4 HLu; try discriminate; cbn [combine map] in *; [inversion E4; constructor|].
      inversion E4 as [|? c0 ? cs Ec E4']; subst. injection HLu as HLu. cbn [map combine fst snd] in *. constructor; [|apply IH; auto]. intros l x. apply (dcase_val PR margin ntest p (k - 1)); auto. Qed.

  Theorem continuous_selects PR bounded nm b g c ts Qs Zs us ft fb factory only len margin N tests b' g' n0 n p ks :
    solves_well PR -> (forall x y, honest [] (bounded x y)) -> (forall x, honest [] (nm x)) -> (forall q h, factory q = Ok h -> valid_reg h) ->
    reach LX (rm_model (br_rom b)) -> m_frozen (rm_model (br_rom b)) = false -> m_intrusive (rm_model (br_rom b)) = false ->
    same_length (map M Qs) Zs -> length ts = length Qs -> (forall l, us = Some l -> length l = length Qs) -> Forall in_order ts ->
    blocks n0 ks Qs -> Forall (lt 0) ks -> 0 < n0 -> 0 < p -> trained_parts n p (rm_parts (br_rom b')) -> columnwise_lifter n0 n (rp_lift (rm_parts (br_rom b'))) ->
    Forall (fun t => exists v, ct_ic t = V v /\ length v = n0) tests ->
    (forall Us, sampled us ts Us -> good_contributions (rm_parts (br_rom b')) (rm_ddt (br_rom b')) true (map M Qs) Zs Us) ->
    bayes_continuous normal LX MX PR bounded nm b g c ts (map M Qs) Zs us ft fb factory only len margin N tests = (b', g', Ok tt) ->
    exists r1 Us es cs L1 L2 q e d post, sampled us ts Us /\ prepared LX (reset_solver (br_rom b)) r1 ft fb (map M Qs) Zs Us es /\ rm_parts (br_rom b') = rm_parts r1 /\ rm_ddt (br_rom b') = rm_ddt r1 /\
      ctrajs (rm_parts r1) us len ts Qs cs /\
      trials normal LX MX factory (rm_model r1) (map (fun t d => passes_continuous PR (rm_parts r1) d t) tests) (map (fits_continuous PR margin p) cs) N (length Qs) g (L1 ++ L2) g' /\
      Permutation (points c) (map fst L1) /\ (only = true -> L2 = []) /\ In (q, Some e) (L1 ++ L2) /\ (forall q' e', In (q', Some e') L1 -> (e <= e')%R) /\
      with_candidate factory (rm_model r1) q d /\ posterior_of LX MX d = Ok post /\ selected normal d post b'.
  Proof. intros HPR Hb Hn HG HRe Hf Hi HZ Ht Hu Ho HB Hk Hn0 Hp HP HC Hic Hgc E. unfold bayes_continuous in E. destruct (rm_cont (br_rom b)) eqn:Econt; cbn [negb] in E; [|discriminate].
    change (match cargs ts (map M Qs) Zs us len with | Err e => (b, g, Err e) | Ok Us => match rom_fit_with (fit_solver LX) (reset_solver (br_rom b)) (Several (map M Qs) Zs Us) ft fb with
          | (r', Err e) => ({| br_rom := r'; br_post := br_post b |}, g, Err e)
          | (r', Ok _) =>
              match (do es <- mapM (encode1 (rm_parts r')) (map M Qs); do Es <- mapM as_mat_r es; do _ <- mapM (limit_of margin) Es; do tests <- mapM (process_ctest PR (rm_parts r')) tests;
                     do tds <- mapM (extend_times len) ts; do cases <- mapM (fun x => ccase PR margin (fst (fst x)) (snd (fst x)) (snd x)) (combine (combine Es (uis us (length Es))) tds);
                     Ok (tests, combine (map (@ncols) Es) cases)) with
              | Err e => ({| br_rom := r'; br_post := br_post b |}, g, Err e)
              | Ok (tests, cases) => let '(s, x) := bselect normal LX MX factory bounded nm only c N tests cases (length (map M Qs)) (bstate_of {| br_rom := r'; br_post := br_post b |} g) in (brom_of {| br_rom := r'; br_post := br_post b |} s, bs_gen s, x)
              end end end = (b', g', Ok tt)) in E.
    destruct (cargs ts (map M Qs) Zs us len) as [Us|] eqn:EA; [|discriminate]. destruct (cargs_ok _ _ _ _ _ _ n0 ks Hn0 EA Ht Hu HB) as (HQ & HS & HUl & Hlen & Hkt).
    destruct (rom_fit_with (fit_solver LX) (reset_solver (br_rom b)) (Several (map M Qs) Zs Us) ft fb) as [r1 [es|]] eqn:E1; [|discriminate].
    destruct (do es <- mapM (encode1 (rm_parts r1)) (map M Qs); _) as [[tts cases]|] eqn:E2; [|discriminate]. destruct (bselect _ _ _ _ _ _ _ _ _ _ _ _ _) as [st x] eqn:E3. injection E as <- <- ->.
    cbn [brom_of br_rom rom_with rm_parts rm_ddt] in HP, HC, Hgc |- *.
    assert (HU : same_length (map M Qs) Us) by (intros l El; rewrite map_length; auto). assert (HPp := first_fit_ok _ _ _ _ _ _ _ _ _ HZ HU E1).
    destruct (mapM (encode1 (rm_parts r1)) (map M Qs)) as [es'|] eqn:Ee; [|discriminate]. cbn [bind] in E2. destruct (encode_mats n0 n p _ _ _ _ HP HC HB Ee) as (Es & -> & HE1 & HE2). rewrite as_mats_r in E2. cbn [bind] in E2.
    destruct (mapM (limit_of margin) Es) as [lims|]; [|discriminate]. cbn [bind] in E2. destruct (mapM (process_ctest PR (rm_parts r1)) tests) as [tts'|] eqn:E5; [|discriminate]. cbn [bind] in E2.
    destruct (mapM (extend_times len) ts) as [tds|] eqn:E6; [|discriminate]. cbn [bind] in E2.
    destruct (mapM (fun x => ccase PR margin (fst (fst x)) (snd (fst x)) (snd x)) (combine (combine Es (uis us (length Es))) tds)) as [cs'|] eqn:E7; [|discriminate]. cbn [bind] in E2. apply join_cases in E7. injection E2 as -> <-.
    destruct (trajs_ok n0 n p _ Qs ks Es us len ts tds Hn0 Hp HP HC HB HE2 HE1 Hk Hkt Ho E6 Hu) as (T1 & T2 & T3).
    assert (HEc : map (fun c => ncols (cj_data c)) (map join (combine (combine Es (uis us (length Es))) tds)) = map ncols Es).
    { rewrite map_map. assert (L1 : length Es = length tds). { apply AffProofs.mapM_Forall2 in E6. rewrite <- (F2_length _ _ _ E6), Ht. symmetry. apply (F2_length _ _ _ HE2). } assert (L2 : length (uis us (length Es)) = length Es) by (unfold uis; destruct us as [l|]; [rewrite map_length, (Hu l eq_refl); apply (F2_length _ _ _ HE2)|apply repeat_length]).
      revert L2 L1. generalize (uis us (length Es)). clear. revert tds. induction Es as [|E Es IH]; intros [|t tds] [|u l] L2 L1; try discriminate; auto. cbn. f_equal. apply IH; auto. }
    set (cs := map join (combine (combine Es (uis us (length Es))) tds)) in *. rewrite map_length in E3.
    destruct (prepared_ready LX (br_rom b) r1 ft fb _ Zs Us _ HX HRe Hf Hi HPp) as (r & m & s0 & D & Z & HR0). { rewrite Econt. apply Hgc; auto. }
    destruct (bselect_ok normal HN LX MX HX HM factory (rm_model r1) r m s0 D Z HR0 HG tts _ N (length Qs) bounded nm only c (br_post b) g st Hb Hn E3) as (L1 & L2 & q & e & d & post & K1 & K2 & K3 & K4 & K5 & K6 & K7 & K8 & K9).
    exists r1, Us, es, cs, L1, L2, q, e, d, post. do 5 (split; [solve [auto]|]). split; [|do 6 (split; [solve [auto]|]); eapply chosen; eauto].
    eapply trials_iff; [| |exact K1].
    - unfold BayesSelect.TS. assert (HTD := test_dims n0 n p _ tests HP HC Hic). apply AffProofs.mapM_Forall2 in E5. clear - E5 HPR HTD Hp. induction E5 as [|t t' l l' Et H IH]; cbn [map]; constructor; auto; inversion HTD; subst; auto. intros d. apply (test_spec_c PR HPR (rm_parts r1) d t t' p Hp); auto.
    - unfold BayesSelect.CS. rewrite <- HEc. clear - E7 T2 HPR Hp. revert E7. clearbody cs. intros E7. revert T2. induction E7 as [|c0 case cs cs' Ec E7 IH]; intros T2; cbn [map combine]; constructor; inversion T2; subst; auto. intros l x. apply (ccase_val PR margin p c0 case l x); auto. Qed.
End Selection.

(* ---- fit(), in terms of the training trajectories ---- *)
Theorem bayes_fit_data LX MX b T ft fb b' p Qs Zs Us : lsx_ok LX -> inverts MX -> reach LX (rm_model (br_rom b)) -> m_intrusive (rm_model (br_rom b)) = false ->
  trajectories_of T Qs Zs Us -> same_length Qs Zs -> same_length Qs Us -> good_contributions (rm_parts (br_rom b')) (rm_ddt (br_rom b')) (rm_cont (br_rom b)) Qs Zs Us ->
  bayes_fit LX MX b T ft fb = (b', Ok tt) -> br_post b' = Some p ->
  exists es ds us Q L U U' s, fitted_on ft fb Qs (rm_parts (br_rom b)) (rm_parts (br_rom b')) /\ contributions (rm_parts (br_rom b')) (rm_ddt (br_rom b')) (rm_cont (br_rom b)) Qs Zs Us es ds us /\
    hstack_arr es = Ok Q /\ hstack_arr ds = Ok L /\ hstack_opt us = Ok U /\ (U' = U \/ exists A u, Q = M A /\ U = Some u /\ U' = Some (cut (ncols A) u)) /\
    m_solver (rm_model (br_rom b')) = Some s /\ is_posterior s p /\ misfit_of_data (rm_model (br_rom b')) s Q L U' p /\ forall s0 w, m_solver (rm_model (br_rom b)) = Some s0 -> penalty s w = penalty s0 w.
Proof. intros HX HM HR Hi HT HZ HU HG E Ep. apply bayes_fit_ok in E. rewrite Ep in E. destruct E as (E & HP). destruct (rom_fit_ok LX (br_rom b) T ft fb (br_rom b') Qs Zs Us HT HZ HU E) as (es & ds & us & Q & L & U & F1 & F2 & F3 & F4 & F5 & F6 & F7).
  rewrite <- F7 in F2. destruct (HG _ _ _ F2) as (G1 & G2 & G3). assert (GQ : good_arr Q) by (eapply hstack_good; eauto). assert (GL : good_arr L) by (eapply hstack_good; eauto).
  assert (GU : valid_in U). { unfold hstack_opt in F5. destruct us as [l|]; [|injection F5 as <-; exact I]. destruct (hstack_arr l) as [u|] eqn:El; [|discriminate]. injection F5 as <-. cbn. eapply hstack_good; eauto. }
  assert (K : exists U', (U' = U \/ exists A u, Q = M A /\ U = Some u /\ U' = Some (cut (ncols A) u)) /\ valid_in U' /\ MonoModel.fit LX (rm_model (br_rom b)) Q L U' = (rm_model (br_rom b'), Ok tt)).
  { unfold model_fit in F6. destruct (m_kind (rm_model (br_rom b))); [discriminate| |exists U; auto]. unfold discrete_fit in F6. destruct (m_frozen _); [discriminate|]. destruct U as [u|]; [|exists None; auto]. destruct Q as [|A]; [discriminate|]. exists (Some (cut (ncols A) u)). split; [right; eauto|]. split; auto.
    cbn. apply cut_good; auto. destruct GQ as (r & c & Hr & Hc & HA). rewrite (ncols_is_mat r c A HA Hr). exact Hc. }
  destruct K as (U' & KU & KV & KF). destruct (fit_posterior LX MX _ Q L U' _ p HX HM HR Hi GQ GL KV KF HP) as (s & S1 & S2 & S3 & S4). exists es, ds, us, Q, L, U, U', s. auto 12. Qed.

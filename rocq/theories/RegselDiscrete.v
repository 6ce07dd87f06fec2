(* RegselDiscrete.v -- fit_regselect_discrete. *)
From Coq Require Import ZArith Reals Lia Lra.
From Verif Require Import LinAlg MatAlg PreProofs MonoHist MonoFinal RomParts RomProofs RomFit GridFinal.
From Verif Require Export RegselCases.
#[local] Open Scope nat_scope.

(* the first fit *)
Lemma first_fit_ok LX r Qs Zs Us ft fb r1 es : same_length Qs Zs -> same_length Qs Us -> rom_fit_with (fit_solver LX) r (Several Qs Zs Us) ft fb = (r1, Ok es) -> prepared LX r r1 ft fb Qs Zs Us es.
Proof.
  intros HZ HU E. unfold rom_fit_with in E.
  destruct (do _ <- check_fit_args _ _ _ _ _; _) as [[P [[qs zs] us]]|e] eqn:E1; [|discriminate].
  destruct (check_fit_args _ _ _ _ _) as [[]|]; [|discriminate]. cbn [bind] in E1. destruct (fix_single (Several Qs Zs Us)) as [[[Q1 Z1] U1]|] eqn:E2; [|discriminate]. cbn [bind] in E1.
  assert (HF : Q1 = Qs /\ Z1 = Zs /\ U1 = Us). { cbn [fix_single] in E2. destruct Qs as [|[v|A] Qs']; try discriminate. inversion E2. auto. }
  destruct HF as (-> & -> & ->). destruct (RomFit.process_ok _ _ _ _ _ _ _ _ _ _ _ _ HZ HU E1) as [F C].
  destruct (do U <- hstack_opt us; _) as [[[Q L] U]|e] eqn:E3; [|discriminate].
  destruct (fit_solver LX (rm_model r) Q L U) as [d' x] eqn:E4. destruct x as [[]|]; [|discriminate]. cbn in E. inversion E; subst r1 qs; clear E.
  destruct (hstack_opt us) as [U'|] eqn:F1; [|discriminate]. cbn [bind] in E3. destruct (hstack_arr es) as [Q'|] eqn:F2; [|discriminate]. cbn [bind] in E3. destruct (hstack_arr zs) as [L'|] eqn:F3; [|discriminate]. cbn [bind] in E3. injection E3 as -> -> ->.
  exists zs, us, Q, L, U. cbn [rm_parts rm_ddt rm_model]. auto 10.
Qed.

Section Discrete.
  Variables (PR : dpredict) (HPR : steps_well PR) (P : parts).
  Lemma length_colv n A j : length (colv n A j) = n.
  Proof. unfold colv. rewrite map_length, seq_length. auto. Qed.

  Lemma test_spec d c t : process_dtest PR P c = Ok t -> (test_ok d t <-> passes_discrete PR P d c).
  Proof. unfold process_dtest. destruct (encode1 P (dt_ic c)) as [[v|A]|] eqn:E; cbn [bind]; try discriminate. intros [= <-]. unfold test_ok, passes_discrete, within_bound. cbn [st_predict st_unstable].
    split.
    - intros (s & Es & Eu). exists v, s. split; auto. split; auto. destruct (HPR _ _ _ _ _ Es) as [H1 H2]. apply (discrete_stable v (dt_bound c) s (Z.to_nat (dt_iters c))); auto.
    - intros (ic & s & Ei & Es & Hw). rewrite E in Ei. injection Ei as <-. exists s. split; auto. destruct (HPR _ _ _ _ _ Es) as [H1 H2]. apply (discrete_stable v (dt_bound c) s (Z.to_nat (dt_iters c))); auto. Qed.
  Lemma case_spec d margin nt n k E u c x : (0 <= nt)%Z -> 0 < n -> is_mat n k E -> dcase PR margin nt E u = Ok c ->
    (case_ok d c (F x) <-> exists s, continues_discrete PR d n E u nt s /\ within_margin margin n (ncols E) E (ncols E + Z.to_nat nt) s /\ relative_error n (ncols E) E s x).
  Proof. intros Hnt Hn HE. unfold dcase. destruct (limit_of margin E) as [lim|] eqn:El; [|discriminate]. cbn [bind]. intros [= <-]. unfold case_ok, continues_discrete. cbn [sc_predict sc_unstable sc_error].
    assert (En : nrows E = n) by apply HE. rewrite En. rewrite (ncols_is_mat n k E HE Hn).
    assert (HX : forall s, PR d (V (colv n E 0)) (Z.of_nat k + nt)%Z u = Ok s -> length s = n /\ Forall (fun row => length row = k + Z.to_nat nt) s).
    { intros s Es. destruct (HPR _ _ _ _ _ Es) as [H1 H2]. rewrite length_colv in H1. replace (k + Z.to_nat nt) with (Z.to_nat (Z.of_nat k + nt)) by lia. auto. }
    split; intros (s & Es & H); exists s; (split; [exact Es|]); destruct (HX s Es) as [H1 H2].
    - destruct H as [Eu Ee]. split; [apply (stable_margin margin n k E _ s lim HE El H1 H2); auto|]. apply (error_spec n k (k + Z.to_nat nt) E s x); auto; lia.
    - destruct H as [Hw He]. split; [apply (stable_margin margin n k E _ s lim HE El H1 H2); auto|]. apply (error_spec n k (k + Z.to_nat nt) E s x); auto; lia. Qed.
  Lemma case_total d margin nt n k E u c s : (0 <= nt)%Z -> 0 < n -> is_mat n k E -> dcase PR margin nt E u = Ok c -> sc_predict c d = Ok s -> exists x, sc_error c s = Ok x.
  Proof. intros Hnt Hn HE. unfold dcase. destruct (limit_of margin E) as [lim|] eqn:El; [|discriminate]. cbn [bind]. intros [= <-]. cbn [sc_predict sc_error]. intros Es. destruct (HPR _ _ _ _ _ Es) as [H1 H2]. rewrite length_colv in H1.
    apply (error_total n k (Z.to_nat (Z.of_nat (ncols E) + nt)) E s); auto. { rewrite H1. apply HE. } rewrite (ncols_is_mat n k E HE Hn). lia. Qed.

  (* stable, with mean error e, exactly if the score is e *)
  Lemma score_spec d margin nt n ks Es us tests ts cases e : (0 <= nt)%Z -> 0 < n -> Forall2 (fun k E => is_mat n k E) ks Es -> length us = length Es ->
    mapM (fun Eu => dcase PR margin nt (fst Eu) (snd Eu)) (combine Es us) = Ok cases -> mapM (process_dtest PR P) tests = Ok ts ->
    (score ts cases (length Es) d = Ok (F e) <-> stable_discrete PR P tests margin n Es us nt d /\ mean_error_discrete PR n Es us nt d e).
  Proof. intros Hnt Hn HEs Hlen Hc Ht. rewrite score_F. apply AffProofs.mapM_Forall2 in Hc. apply AffProofs.mapM_Forall2 in Ht.
    assert (HT : Forall (test_ok d) ts <-> Forall (passes_discrete PR P d) tests).
    { clear - Ht HPR. induction Ht as [|c t tests ts E Ht IH]; [split; auto|]. assert (H := test_spec d c t E). split; intros HF; inversion HF; subst; constructor; tauto. }
    rewrite HT. unfold stable_discrete, mean_error_discrete.
    assert (HC : forall xs, Forall2 (case_ok d) cases (map F xs) <->
      Forall2 (fun E u => exists s, continues_discrete PR d n E u nt s /\ within_margin margin n (ncols E) E (ncols E + Z.to_nat nt) s) Es us /\
      Forall2 (fun Eu x => exists s, continues_discrete PR d n (fst Eu) (snd Eu) nt s /\ relative_error n (ncols (fst Eu)) (fst Eu) s x) (combine Es us) xs).
    { clear - Hc HEs HPR Hnt Hn Hlen. revert us cases Hlen Hc. induction HEs as [|k E ks Es HE HEs IH]; intros [|u us] cases Hlen Hc xs; try discriminate.
      - inversion Hc; subst. split.
        + intros H. destruct xs; [|inversion H]. split; constructor.
        + intros [_ H]. inversion H. constructor.
      - inversion Hc as [|? c ? cs Ec Hc']; subst. injection Hlen as Hlen. specialize (IH us cs Hlen Hc'). destruct xs as [|x xs]. { split; [intros H; inversion H|intros [_ H]; inversion H]. }
        cbn [map combine]. cbn [fst snd] in Ec. assert (HS := case_spec d margin nt n k E u c x Hnt Hn HE Ec). specialize (IH xs). split.
        + intros H. inversion H as [|? ? ? ? H1 H2]; subst. apply HS in H1. destruct H1 as (s & A1 & A2 & A3). apply IH in H2. destruct H2 as [B1 B2]. split; constructor; eauto.
        + intros [H1 H2]. inversion H1 as [|? ? ? ? (s & A1 & A2) B1]; subst. inversion H2 as [|? ? ? ? (s' & A1' & A3) B2]; subst. cbn [fst snd] in *.
          assert (s' = s) by (unfold continues_discrete in *; congruence). subst s'. constructor; [apply HS; eauto|]. apply IH. auto. }
    split.
    - intros (A & xs & H & ->). apply HC in H. destruct H as [H1 H2]. split; [split; auto|]. exists xs. auto.
    - intros ((A & H1) & xs & H2 & ->). split; auto. exists xs. split; auto. apply HC. auto. Qed.
  Lemma score_total d margin nt n ks Es us tests ts cases : (0 <= nt)%Z -> 0 < n -> Forall2 (fun k E => is_mat n k E) ks Es -> length us = length Es ->
    mapM (fun Eu => dcase PR margin nt (fst Eu) (snd Eu)) (combine Es us) = Ok cases -> mapM (process_dtest PR P) tests = Ok ts ->
    predicts_discrete PR P tests n Es us nt d -> exists v, score ts cases (length Es) d = Ok v.
  Proof. intros Hnt Hn HEs Hlen Hc Ht [HallT Hall]. apply AffProofs.mapM_Forall2 in Hc. apply AffProofs.mapM_Forall2 in Ht. unfold score.
    assert (HT : exists b, pass_tests d ts = Ok b).
    { clear - Ht HallT. induction Ht as [|c t tests ts E Ht IH]; cbn [pass_tests]; [eauto|]. inversion HallT as [|? ? Hv HallT']; subst. specialize (IH HallT'). unfold process_dtest in E. destruct (encode1 P (dt_ic c)) as [[v|A]|]; cbn [bind] in E; try discriminate. injection E as <-.
      unfold evaluate. cbn [st_predict st_unstable]. destruct (Hv v eq_refl) as [s ->]. cbn [bind]. destruct (negb _); eauto. }
    destruct HT as [[] ->]; cbn [bind]; [|eauto].
    assert (HC : forall e, exists v, sum_errors d cases e = Ok v).
    { clear - Hc HEs HPR Hnt Hn Hlen Hall. revert us cases Hlen Hc Hall. induction HEs as [|k E ks Es HE HEs IH]; intros [|u us] cases Hlen Hc Hall e; try discriminate.
      - inversion Hc; subst. cbn. eauto.
      - inversion Hc as [|? c ? cs Ec Hc']; subst. injection Hlen as Hlen. inversion Hall as [|? ? ? ? Hs1 Hall']; subst. specialize (IH us cs Hlen Hc' Hall'). cbn [fst snd] in Ec. cbn [sum_errors].
        assert (Hs : exists s, sc_predict c d = Ok s). { unfold dcase in Ec. destruct (limit_of margin E); [|discriminate]. cbn [bind] in Ec. injection Ec as <-. cbn. unfold continues_discrete in Hs1. replace (nrows E) with n by (symmetry; apply HE). exact Hs1. }
        destruct Hs as [s Es0]. rewrite Es0. cbn [bind]. destruct (sc_unstable c s); [eauto|]. destruct (case_total d margin nt n k E u c s Hnt Hn HE Ec Es0) as [x ->]. cbn [bind]. apply IH. }
    destruct (HC (F 0)) as [v ->]. cbn [bind]. eauto. Qed.
End Discrete.

Lemma same_length_ok Qs nt Us : dinputs_ok nt Qs Us = Ok tt -> same_length Qs Us.
Proof. unfold dinputs_ok. intros H l ->. destruct (Nat.eqb_spec (length l) (length Qs)); auto. discriminate. Qed.
Lemma fix_single_ok T Qs Zs Us : fix_single T = Ok (Qs, Zs, Us) -> trajectories_of T Qs Zs Us.
Proof. destruct T as [Q Z U|Qs' Zs' Us']; cbn [fix_single].
  - destruct (nrows Q =? 0); [discriminate|]. intros E. inversion E; subst. cbn. auto.
  - destruct Qs' as [|[v|A] Qs']; try discriminate. intros E. inversion E; subst. cbn. auto. Qed.
Lemma inputs_for_length n Us : (forall l, Us = Some l -> length l = n) -> length (inputs_for n Us) = n.
Proof. destruct Us as [l|]; intros H; cbn; [rewrite map_length; auto|apply repeat_length]. Qed.
Lemma removelast_len {A} (l : list A) : length (removelast l) = length l - 1.
Proof. induction l as [|x [|y l] IH]; cbn [removelast length] in *; auto. rewrite IH. cbn. lia. Qed.

(* the data of the search *)
Lemma discrete_data n0 n p P D Qs Us es ds us ks : contributions P D false (map M Qs) None Us es ds us -> blocks n0 ks Qs -> trained_parts n p P -> columnwise_lifter n0 n (rp_lift P) ->
  exists Es, es = map M Es /\ Forall2 (fun k E => is_mat p (k - 1) E) ks Es /\ Forall2 (fun Q E => exists C, encode1 P (M Q) = Ok (M C) /\ E = map (@removelast R) C) Qs Es.
Proof. intros (L1 & _ & _ & _ & HI) HB HP HC. rewrite map_length in *. assert (HLk := F2_length _ _ _ HB). assert (EC := encode_columns n0 n p _ HP HC).
  assert (HE : forall i, i < length Qs -> exists C, nth i es dfl = M (map (@removelast R) C) /\ encode1 P (M (nth i Qs [])) = Ok (M C) /\ is_mat p (nth i ks 0) C).
  { intros i Hi. specialize (HI i Hi). cbn [nth_opt option_map] in HI. destruct HI as (c & Ec & Ei & -> & H1 & H2 & H3). exists Ei. rewrite encode_cont_none in Ec.
    destruct (encode1 P (nth i (map M Qs) dfl)) as [c|] eqn:Ec'; [|discriminate]. injection Ec as ->. rewrite (nth_map_in _ Qs i dfl []) in Ec' by auto. split; auto. split; auto.
    assert (HM : is_mat n0 (nth i ks 0) (nth i Qs [])) by (apply (Forall2_nth_iff (fun c M => is_mat n0 c M) ks Qs 0 []); auto; lia).
    destruct (EC (nth i ks 0) (M (nth i Qs [])) HM _ Ec') as (SE & _ & _). exact SE. }
  destruct (finite_choice [] (length Qs) (fun i C => nth i es dfl = M (map (@removelast R) C) /\ encode1 P (M (nth i Qs [])) = Ok (M C) /\ is_mat p (nth i ks 0) C) HE) as [G HG].
  exists (map (fun i => map (@removelast R) (G i)) (seq 0 (length Qs))).
  assert (NE : forall i, i < length Qs -> nth i (map (fun i => map (@removelast R) (G i)) (seq 0 (length Qs))) [] = map (@removelast R) (G i)).
  { intros i Hi. rewrite (nth_map_in _ (seq 0 (length Qs)) i [] 0) by (rewrite seq_length; auto). now rewrite seq_nth. }
  split; [|split].
  - apply (nth_ext _ _ dfl dfl); rewrite ?map_length, ?seq_length; [lia|]. intros i Hi. rewrite (nth_map_in _ _ i dfl []) by (rewrite map_length, seq_length; lia). rewrite NE by lia. now apply HG; lia.
  - apply (index_Forall2 _ 0 []); [rewrite map_length, seq_length; lia|]. intros i Hi. rewrite NE by lia. apply is_mat_removelast. apply HG; lia.
  - apply (index_Forall2 _ [] []); [rewrite map_length, seq_length; lia|]. intros i Hi. rewrite NE by lia. exists (G i). split; auto. apply HG; auto. Qed.
Lemma as_mats_r Es : mapM as_mat_r (map M Es) = Ok Es.
Proof. induction Es as [|E Es IH]; cbn; auto. rewrite IH. auto. Qed.


(* the search, once its data are there *)
Lemma discrete_run LX PR bounded nm r c T ft fb factory only ntest margin tests Qs Us n0 n p ks r1 es :
  rm_cont r = false -> has_regularizer (rm_model r) = true -> trajectories_of T (map M Qs) None Us -> (0 <= ntest)%Z -> dinputs_ok ntest (map M Qs) Us = Ok tt ->
  rom_fit_with (fit_solver LX) r (Several (map M Qs) None Us) ft fb = (r1, Ok es) -> blocks n0 ks Qs -> trained_parts n p (rm_parts r1) -> columnwise_lifter n0 n (rp_lift (rm_parts r1)) ->
  exists Es, es = map M Es /\ Forall2 (fun k E => is_mat p (k - 1) E) ks Es /\ Forall2 (fun Q E => exists C, encode1 (rm_parts r1) (M Q) = Ok (M C) /\ E = map (@removelast R) C) Qs Es /\
    length (inputs_for (length Es) Us) = length Es /\ same_length (map M Qs) Us /\
    (fix_single T = Ok (map M Qs, None, Us) -> regselect_discrete LX PR bounded nm r c T ft fb factory only ntest margin tests =
      match (do cases <- mapM (fun Qu => dcase PR margin ntest (fst Qu) (snd Qu)) (combine Es (inputs_for (length Es) Us)); do ts <- mapM (process_dtest PR (rm_parts r1)) tests; Ok (ts, cases)) with
      | Err e => (r1, Err e)
      | Ok (ts, cases) => let '(d, x) := select (model_update LX factory) bounded nm only c ts cases (length Es) (rm_model r1) in ({| rm_parts := rm_parts r1; rm_ddt := rm_ddt r1; rm_model := d |}, x)
      end).
Proof. intros H1 H2 HT H3 H4 H5 HB HP HC. assert (HL := same_length_ok _ _ _ H4).
  destruct (first_fit_ok _ _ _ _ _ _ _ _ _ (fun l (H : None = Some l) => match H with eq_refl => I end) HL H5) as (ds & us & Q & L & U & _ & F2 & _). rewrite H1 in F2.
  destruct (discrete_data n0 n p _ _ _ _ _ _ _ _ F2 HB HP HC) as (Es & -> & HE1 & HE2). exists Es. split; auto. split; auto. split; auto. split.
  { apply inputs_for_length. intros l El. rewrite (HL l El), map_length. rewrite (F2_length _ _ _ HE2). auto. }
  split; auto. intros EF. unfold regselect_discrete. rewrite H1, H2. cbn [negb]. rewrite EF. destruct (Z.ltb_spec ntest 0); [lia|]. rewrite H4. rewrite H5. rewrite as_mats_r. cbn [bind]. rewrite map_length. reflexivity. Qed.

Lemma fix_single_sym T Qs Zs Us Qs' Zs' Us' : trajectories_of T Qs Zs Us -> fix_single T = Ok (Qs', Zs', Us') -> Qs' = Qs /\ Zs' = Zs /\ Us' = Us.
Proof. intros HT EF. apply fix_single_ok in EF. destruct T; cbn in HT, EF; destruct HT as (A1 & A2 & A3), EF as (B1 & B2 & B3); repeat split; congruence. Qed.
Lemma blocks_pred (p : nat) ks Es : Forall2 (fun k E => is_mat p (k - 1) E) ks Es -> Forall2 (fun k E => is_mat p k E) (map (fun k => k - 1) ks) Es.
Proof. intros H. induction H; cbn; constructor; auto. Qed.

Lemma discrete_best LX PR bounded nm r c T ft fb factory only ntest margin tests r' Qs Us n0 n p ks :
  steps_well PR -> (forall a b, honest [] (bounded a b)) -> (forall x, honest [] (nm x)) ->
  trajectories_of T (map M Qs) None Us -> blocks n0 ks Qs -> 0 < p -> trained_parts n p (rm_parts r') -> columnwise_lifter n0 n (rp_lift (rm_parts r')) ->
  regselect_discrete LX PR bounded nm r c T ft fb factory only ntest margin tests = (r', Ok tt) ->
  exists r1 Es q e, prepared LX r r1 ft fb (map M Qs) None Us (map M Es) /\ rm_parts r' = rm_parts r1 /\ rm_ddt r' = rm_ddt r1 /\
    Forall2 (fun k E => is_mat p (k - 1) E) ks Es /\ Forall2 (fun Q E => exists C, encode1 (rm_parts r') (M Q) = Ok (M C) /\ E = map (@removelast R) C) Qs Es /\
    retrained LX factory (rm_model r1) q (rm_model r') /\
    stable_discrete PR (rm_parts r') tests margin p Es (inputs_for (length Es) Us) ntest (rm_model r') /\
    mean_error_discrete PR p Es (inputs_for (length Es) Us) ntest (rm_model r') e /\
    forall q' d' e', In q' (points c) -> retrained LX factory (rm_model r1) q' d' -> stable_discrete PR (rm_parts r') tests margin p Es (inputs_for (length Es) Us) ntest d' ->
      mean_error_discrete PR p Es (inputs_for (length Es) Us) ntest d' e' -> (e <= e')%R.
Proof. intros HPR Hb Hn HT HB Hp HP HC E. assert (E0 := E). unfold regselect_discrete in E. destruct (rm_cont r) eqn:Econt; [discriminate|]. destruct (has_regularizer (rm_model r)) eqn:Ereg; cbn [negb] in E; [|discriminate].
  destruct (fix_single T) as [[[Qs' Zs'] Us']|] eqn:EF; [|discriminate]. destruct (fix_single_sym _ _ _ _ _ _ _ HT EF) as (-> & -> & ->).
  destruct (Z.ltb_spec ntest 0) as [|Hnt]; [discriminate|]. destruct (dinputs_ok ntest (map M Qs) Us) as [[]|] eqn:ED; [|discriminate].
  destruct (rom_fit_with (fit_solver LX) r (Several (map M Qs) None Us) ft fb) as [r1 [es|]] eqn:E1; [|discriminate].
  assert (EP : rm_parts r' = rm_parts r1 /\ rm_ddt r' = rm_ddt r1). { destruct (do Es <- mapM as_mat_r es; _) as [[ts cs]|]; [|discriminate]. destruct (select _ _ _ _ _ _ _ _ _) as [d x]. inversion E. auto. }
  clear E. destruct EP as [EP ED']. rewrite EP in HP, HC |- *.
  destruct (discrete_run LX PR bounded nm r c T ft fb factory only ntest margin tests Qs Us n0 n p ks r1 es Econt Ereg HT Hnt ED E1 HB HP HC) as (Es & -> & HE1 & HE2 & HL & HU & HR). rewrite (HR EF) in E0. clear HR.
  destruct (mapM (fun Qu => dcase PR margin ntest (fst Qu) (snd Qu)) (combine Es (inputs_for (length Es) Us))) as [cs|] eqn:E4; [|discriminate]. cbn [bind] in E0.
  destruct (mapM (process_dtest PR (rm_parts r1)) tests) as [ts|] eqn:E5; [|discriminate]. cbn [bind] in E0.
  destruct (select (model_update LX factory) bounded nm only c ts cs (length Es) (rm_model r1)) as [d x] eqn:E3. inversion E0; subst r' x; clear E0. cbn [rm_parts rm_model rm_ddt] in *.
  destruct (select_ok (model_update LX factory) bounded nm Hb Hn (variant (rm_model r1)) (rm_model r1) (variant_refl _) (fun d p H => update_variant LX factory _ d p H) ts cs (length Es) only c d E3) as (q & e & Eq & Es0 & Hmin).
  assert (HS : forall d e, score ts cs (length Es) d = Ok (F e) <-> stable_discrete PR (rm_parts r1) tests margin p Es (inputs_for (length Es) Us) ntest d /\ mean_error_discrete PR p Es (inputs_for (length Es) Us) ntest d e).
  { intros. apply (score_spec PR HPR (rm_parts r1) _ margin ntest p (map (fun k => k - 1) ks)); auto. now apply blocks_pred. }
  exists r1, Es, q, e. apply HS in Es0. destruct Es0 as [S1 S2]. apply retrained_iff in Eq.
  split. { apply first_fit_ok; auto. intros l Hl. discriminate. }
  do 7 (split; [solve [auto]|]).
  intros q' d' e' Hq' Hd' H1 H2. apply retrained_iff in Hd'. destruct (Hmin q' d' Hq' Hd') as (v & Ev & Hv). apply Hv. assert (Hs : score ts cs (length Es) d' = Ok (F e')) by (apply HS; auto). congruence. Qed.

(* the cases and the tests can be set up *)
Lemma cases_total PR margin ntest p (ks : list nat) Es (us : list (option inputarg)) : 0 < p -> Forall (lt 1) ks -> Forall2 (fun k E => is_mat p (k - 1) E) ks Es -> length us = length Es ->
  exists cs, mapM (fun Qu => dcase PR margin ntest (fst Qu) (snd Qu)) (combine Es us) = Ok cs.
Proof. intros Hp Hk H. revert us. induction H as [|k E ks Es HE H IH]; intros [|u us] Hl; try discriminate; [exists []; reflexivity|]. inversion Hk; subst. injection Hl as Hl. destruct (IH H3 us Hl) as [cs Ecs].
  cbn [combine mapM fst snd]. unfold dcase at 1. destruct (limit_total p (k - 1) margin E HE Hp) as [lim ->]; [lia|]. cbn [bind]. rewrite Ecs. cbn. eauto. Qed.
Lemma tests_total PR P tests : Forall (fun t => exists v, encode1 P (dt_ic t) = Ok (V v)) tests -> exists ts, mapM (process_dtest PR P) tests = Ok ts.
Proof. intros H. induction H as [|t tests [v Ev] H [ts IH]]; [exists []; reflexivity|]. cbn [mapM]. unfold process_dtest at 1. rewrite Ev. cbn [bind]. rewrite IH. cbn. eauto. Qed.

Section Outcome.
  Variables (LX : lsx) (PR : dpredict) (bounded : R -> R -> strat) (nm : list fnum -> strat) (r : rom) (c : cand_arg) (T : training) (ft : bool) (fb : option BasisModel.ext)
    (factory : param -> res sreg) (only : bool) (ntest : Z) (margin : R) (tests : list dtest) (Qs : list mat) (Us : option (list arr)) (n0 n p : nat) (ks : list nat) (r1 : rom) (Es : list mat).
  Hypotheses (HPR : steps_well PR) (H1 : rm_cont r = false) (H2 : has_regularizer (rm_model r) = true) (HT : trajectories_of T (map M Qs) None Us) (H3 : (0 <= ntest)%Z)
    (H4 : dinputs_ok ntest (map M Qs) Us = Ok tt) (Hc : well_shaped c) (HB : blocks n0 ks Qs) (Hk : Forall (lt 1) ks) (HQ : Qs <> []) (H0 : 0 < n0) (Hp : 0 < p)
    (H5 : rom_fit_with (fit_solver LX) r (Several (map M Qs) None Us) ft fb = (r1, Ok (map M Es))) (HP : trained_parts n p (rm_parts r1)) (HC : columnwise_lifter n0 n (rp_lift (rm_parts r1)))
    (Ht : Forall (fun t => exists v, encode1 (rm_parts r1) (dt_ic t) = Ok (V v)) tests)
    (Hall : forall q d, In q (points c) -> retrained LX factory (rm_model r1) q d -> predicts_discrete PR (rm_parts r1) tests p Es (inputs_for (length Es) Us) ntest d).
  Let us := inputs_for (length Es) Us.
  Lemma fix_single_T : fix_single T = Ok (map M Qs, None, Us).
  Proof. destruct T as [Q Z U|Qs' Zs' Us']; cbn in HT; destruct HT as (A & B & C); cbn [fix_single].
    - destruct Qs as [|Q' [|]]; try discriminate. injection A as ->. inversion HB as [|k ? ? ? HM ?]; subst. destruct HM as [HM _]. destruct (Nat.eqb_spec (nrows Q) 0); [unfold nrows in *; lia|]. destruct Z; [discriminate|]. destruct U; cbn in *; congruence.
    - destruct Qs as [|Q' Qs'']; [congruence|]. cbn [map] in A |- *. subst. reflexivity. Qed.
  Lemma setup : exists ts cs, Forall2 (fun k E => is_mat p (k - 1) E) ks Es /\ length us = length Es /\
    mapM (fun Qu => dcase PR margin ntest (fst Qu) (snd Qu)) (combine Es us) = Ok cs /\ mapM (process_dtest PR (rm_parts r1)) tests = Ok ts /\
    regselect_discrete LX PR bounded nm r c T ft fb factory only ntest margin tests =
      (let '(d, x) := select (model_update LX factory) bounded nm only c ts cs (length Es) (rm_model r1) in ({| rm_parts := rm_parts r1; rm_ddt := rm_ddt r1; rm_model := d |}, x)).
  Proof. destruct (discrete_run LX PR bounded nm r c T ft fb factory only ntest margin tests Qs Us n0 n p ks r1 _ H1 H2 HT H3 H4 H5 HB HP HC) as (Es' & EE & HE1 & _ & HL & _ & HR).
    assert (Es' = Es). { clear - EE. revert Es EE. induction Es' as [|a l IH]; intros [|b l'] E; try discriminate; auto. injection E as -> E. f_equal. auto. } subst Es'.
    destruct (cases_total PR margin ntest p ks Es us Hp Hk HE1 HL) as [cs Ecs]. destruct (tests_total PR _ tests Ht) as [ts Ets]. exists ts, cs. fold us in HL, HR. rewrite (HR fix_single_T), Ecs, Ets. cbn [bind]. auto. Qed.
  Lemma discrete_none : (forall q d, In q (points c) -> retrained LX factory (rm_model r1) q d -> stable_discrete PR (rm_parts r1) tests margin p Es us ntest d -> forall e, ~ mean_error_discrete PR p Es us ntest d e) ->
    exists r', regselect_discrete LX PR bounded nm r c T ft fb factory only ntest margin tests = (r', Err RuntimeError).
  Proof. intros Hno. destruct setup as (ts & cs & HE & HL & Ecs & Ets & ->).
    destruct (select_none (model_update LX factory) bounded nm (variant (rm_model r1)) (rm_model r1) (variant_refl _) (fun d p H => update_variant LX factory _ d p H) ts cs (length Es) only c Hc) as (d' & _ & ->).
    - intros q d Hq Ed. apply retrained_iff in Ed. destruct (score_total PR HPR (rm_parts r1) d margin ntest p _ Es us tests ts cs H3 Hp (blocks_pred _ _ _ HE) HL Ecs Ets (Hall q d Hq Ed)) as [v Ev].
      exists v. split; auto. intros e ->. apply (score_spec PR HPR (rm_parts r1) d margin ntest p _ Es us tests ts cs e H3 Hp (blocks_pred _ _ _ HE) HL Ecs Ets) in Ev. destruct Ev. eapply Hno; eauto.
    - eauto. Qed.
  Lemma discrete_some : only = true -> (exists q d e, In q (points c) /\ retrained LX factory (rm_model r1) q d /\ stable_discrete PR (rm_parts r1) tests margin p Es us ntest d /\ mean_error_discrete PR p Es us ntest d e) ->
    exists r', regselect_discrete LX PR bounded nm r c T ft fb factory only ntest margin tests = (r', Ok tt).
  Proof. intros Ho (q & d & e & Hq & Hr & Hs & He). destruct setup as (ts & cs & HE & HL & Ecs & Ets & ->). rewrite Ho.
    destruct (select_some (model_update LX factory) bounded nm (variant (rm_model r1)) (rm_model r1) (variant_refl _) (fun d p H => update_variant LX factory _ d p H) ts cs (length Es) c Hc) as (d' & ->).
    - intros q' d' Hq' Ed. apply retrained_iff in Ed. apply (score_total PR HPR (rm_parts r1) d' margin ntest p _ Es us tests ts cs H3 Hp (blocks_pred _ _ _ HE) HL Ecs Ets (Hall q' d' Hq' Ed)).
    - exists q, d, e. split; auto. split; [apply retrained_iff; auto|]. apply (score_spec PR HPR (rm_parts r1) d margin ntest p _ Es us tests ts cs e H3 Hp (blocks_pred _ _ _ HE) HL Ecs Ets). auto.
    - eauto. Qed.
End Outcome.

(* the installed model is the best one for its regularizer *)
Lemma retrained_best LX factory d states lhs inputs d1 q d' : lsx_ok LX -> reach LX d -> m_frozen d = false -> m_intrusive d = false -> good_arr states -> good_arr lhs -> valid_in inputs ->
  fit_solver LX d states lhs inputs = (d1, Ok tt) -> (forall g, factory q = Ok g -> valid_reg g) -> retrained LX factory d1 q d' ->
  exists g s1 s, factory q = Ok g /\ m_solver d1 = Some s1 /\ lsq_setreg s1 g = (s, Ok tt) /\ best LX d' s states lhs inputs.
Proof. intros HX HR Hf Hi G1 G2 G3 EF HG (g & s1 & d2 & Eg & Es1 & _ & Er & Ef). assert (H := reach_minv LX d HX HR).
  destruct (fit_solver_inv LX d states lhs inputs d1 (Ok tt) HX (mi_s LX d H) Hf Hi (mi_w LX d H) G1 G2 G3 EF) as (_ & _ & _ & _ & Hok). destruct (Hok eq_refl) as (_ & r & m & k & U & HFt).
  assert (H2 := set_regularizer_fitted _ _ _ _ _ _ _ _ _ _ _ HFt (HG g Eg) Er). unfold set_regularizer in Er. rewrite Es1 in Er. destruct (lsq_setreg s1 g) as [s x] eqn:Es. inversion Er; subst d2 x.
  exists g, s1, s. split; auto. split; auto. split; auto. eapply fitted_best; eauto. intros s' w [= <-]. auto. Qed.

(* refusals *)
Lemma discrete_refuses LX PR bounded nm r c T ft fb factory only ntest margin tests :
  let run := regselect_discrete LX PR bounded nm r c T ft fb factory only ntest margin tests in
  (rm_cont r = true -> run = (r, Err AttributeError)) /\
  (rm_cont r = false -> has_regularizer (rm_model r) = false -> run = (r, Err AttributeError)) /\
  (forall Qs Zs Us, rm_cont r = false -> has_regularizer (rm_model r) = true -> fix_single T = Ok (Qs, Zs, Us) ->
     ((ntest < 0)%Z -> run = (r, Err ValueError)) /\
     (forall us, (0 <= ntest)%Z -> Us = Some us -> length us <> length Qs -> run = (r, Err DimensionalityError)) /\
     (forall us i, (0 <= ntest)%Z -> Us = Some us -> length us = length Qs -> i < length Qs ->
        (Z.of_nat (width_of (nth i us (V []))) < Z.of_nat (width_of (nth i Qs (V []))) + ntest)%Z -> run = (r, Err ValueError))).
Proof. cbv zeta. unfold regselect_discrete. split; [intros ->; auto|]. split; [intros -> ->; auto|]. intros Qs Zs Us -> -> ->. cbn [negb]. split; [|split].
  - intros H. destruct (Z.ltb_spec ntest 0); [auto|lia].
  - intros us H -> Hl. destruct (Z.ltb_spec ntest 0); [lia|]. cbn [dinputs_ok guard bind]. destruct (Nat.eqb_spec (length us) (length Qs)); [congruence|]. auto.
  - intros us i H -> Hl Hi Hw. destruct (Z.ltb_spec ntest 0); [lia|]. cbn [dinputs_ok guard bind]. rewrite Hl, Nat.eqb_refl. cbn [negb].
    replace (existsb _ (combine Qs us)) with true; [auto|]. symmetry. apply existsb_exists. exists (nth i Qs (V []), nth i us (V [])). split; [|cbn; apply Z.ltb_lt; lia].
    rewrite <- combine_nth by auto. apply nth_In. rewrite combine_length. lia. Qed.

(* zero data have no relative error *)
Lemma zero_data PR n E us Es ntest d e : In E Es -> length us = length Es -> sumsq n (ncols E) E = 0%R -> ~ mean_error_discrete PR n Es us ntest d e.
Proof. intros HI Hl HZ (xs & HF & _). revert us xs Hl HF. induction Es as [|E' Es IH]; intros [|u us] xs Hl HF; try contradiction; try discriminate. cbn [combine] in HF. inversion HF as [|? ? ? ? (s & _ & Y & _ & _ & Hn & _) HF']; subst. cbn [fst] in Hn. injection Hl as Hl.
  destruct HI as [->|HI]; [congruence|eauto]. Qed.

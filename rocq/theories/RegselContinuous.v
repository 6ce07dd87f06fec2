(* RegselContinuous.v -- fit_regselect_continuous. *)
From Coq Require Import ZArith Reals Lia Lra.
From Verif Require Import LinAlg MatAlg PreProofs MonoHist MonoFinal RomParts RomProofs RomFit GridFinal.
From Verif Require Export RegselDiscrete.
#[local] Open Scope nat_scope.

(* ---- the times ---- *)
Lemma extend_prefix len t td : extend_times len t = Ok td -> firstn (length t) td = t /\ length t <= length td.
Proof. unfold extend_times. destruct (Rlt_dec 0 len); [|intros [= <-]; split; [apply firstn_all|lia]]. destruct (_ <? 2); [discriminate|]. destruct (Rle_dec _ 0); [discriminate|]. intros [= <-].
  rewrite app_length. split; [|lia]. rewrite firstn_app, Nat.sub_diag, firstn_all. cbn. apply app_nil_r. Qed.
Lemma extend_total len t : (len <= 0)%R \/ (2 <= length t /\ (0 < lsum (map2 Rminus (tl t) t) / INR (length t - 1))%R) -> exists td, extend_times len t = Ok td.
Proof. unfold extend_times. destruct (Rlt_dec 0 len) as [Hl|]; [|eauto]. intros [H|[H1 H2]]; [lra|]. destruct (Nat.ltb_spec (length t) 2); [lia|]. destruct (Rle_dec _ 0); [lra|]. eauto. Qed.

Section Continuous.
  Variables (PR : cpredict) (HPR : solves_well PR) (P : parts).
  Lemma test_spec_c d c t p : 0 < p -> (forall v, encode1 P (ct_ic c) = Ok (V v) -> length v = p) -> process_ctest PR P c = Ok t -> (test_ok d t <-> passes_continuous PR P d c).
  Proof. intros Hp HV. unfold process_ctest. destruct (encode1 P (ct_ic c)) as [[v|A]|] eqn:E; cbn [bind]; try discriminate. specialize (HV v eq_refl). intros [= <-]. unfold test_ok, passes_continuous, within_bound, complete. cbn [st_predict st_unstable].
    split.
    - intros (s & Es & Eu). exists v, s. split; auto. split; auto. destruct (HPR _ _ _ _ _ Es) as [H1 [w H2]]. apply (continuous_stable _ v (ct_bound c) s w) in Eu; auto; [|lia]. destruct Eu as [-> Hs]. auto.
    - intros (ic & s & Ei & Es & Hc & Hw). rewrite E in Ei. injection Ei as <-. exists s. split; auto. destruct (HPR _ _ _ _ _ Es) as [H1 _]. apply (continuous_stable _ v (ct_bound c) s (length (ct_times c))); auto; lia. Qed.

  (* a trajectory that can be scored *)
  Definition scorable (n : nat) (c : ctraj) : Prop := exists k, 0 < k /\ is_mat n k (cj_data c) /\ k <= length (cj_times c) /\ in_order (firstn k (cj_times c)).
  Lemma case_spec_c d margin n c case x : 0 < n -> scorable n c -> ccase PR margin (cj_data c) (cj_input c) (cj_times c) = Ok case ->
    (case_ok d case (F x) <-> exists s, continues_continuous PR d n c s /\ not_seen_outside margin n (ncols (cj_data c)) (cj_data c) (length (cj_times c)) s /\
      relative_error_in_time n (ncols (cj_data c)) (firstn (ncols (cj_data c)) (cj_times c)) (cj_data c) s x).
  Proof. intros Hn (k & Hk & HE & Ht & HO). unfold ccase. destruct (limit_of margin (cj_data c)) as [lim|] eqn:El; [|discriminate]. cbn [bind]. intros [= <-]. unfold case_ok, continues_continuous. cbn [sc_predict sc_unstable sc_error].
    assert (En : nrows (cj_data c) = n) by apply HE. rewrite En. rewrite (ncols_is_mat n k _ HE Hn).
    assert (HX : forall s, PR d (V (colv n (cj_data c) 0)) (cj_times c) (cj_input c) = Ok s -> length s = n /\ exists w, Forall (fun row => length row = w) s).
    { intros s Es. destruct (HPR _ _ _ _ _ Es) as [H1 H2]. rewrite length_colv in H1. auto. }
    split; intros (s & Es & H); exists s.
    - destruct (HX s Es) as [H1 H2]. destruct H as [Eu Ee]. apply (stable_margin_c margin n k _ _ s lim HE El H1 H2) in Eu. destruct Eu as [HC Hno]. split; [auto|]. split; [auto|]. apply (error_c_spec n k (length (cj_times c)) (cj_times c) (cj_data c) s x); auto.
    - destruct Es as [Es HC]. destruct (HX s Es) as [H1 H2]. split; [auto|]. destruct H as [Hw He]. split; [apply (stable_margin_c margin n k _ _ s lim HE El H1 H2); auto|]. apply (error_c_spec n k (length (cj_times c)) (cj_times c) (cj_data c) s x); auto. Qed.
  Lemma case_total_c d margin n c case s : 0 < n -> scorable n c -> ccase PR margin (cj_data c) (cj_input c) (cj_times c) = Ok case -> sc_predict case d = Ok s -> sc_unstable case s = false -> exists x, sc_error case s = Ok x.
  Proof. intros Hn (k & Hk & HE & Ht & HO). unfold ccase. destruct (limit_of margin (cj_data c)) as [lim|] eqn:El; [|discriminate]. cbn [bind]. intros [= <-]. cbn [sc_predict sc_error sc_unstable]. intros Es Eu. destruct (HPR _ _ _ _ _ Es) as [H1 H2]. rewrite length_colv in H1.
    assert (En : nrows (cj_data c) = n) by apply HE. rewrite En in H1. apply (stable_margin_c margin n k _ _ s lim HE El H1 H2) in Eu. destruct Eu as [HC _]. apply (error_c_total n k (length (cj_times c))); auto. Qed.

  Lemma score_spec_c d margin n cs total tests ts cases e : 0 < n -> Forall (scorable n) cs -> Forall (fun c => forall v, encode1 P (ct_ic c) = Ok (V v) -> length v = n) tests ->
    Forall2 (fun c case => ccase PR margin (cj_data c) (cj_input c) (cj_times c) = Ok case) cs cases -> mapM (process_ctest PR P) tests = Ok ts ->
    (score ts cases total d = Ok (F e) <-> not_seen_unstable PR P tests margin n cs d /\ mean_error_continuous PR n cs total d e).
  Proof. intros Hn HS HV Hc Ht. rewrite score_F. apply AffProofs.mapM_Forall2 in Ht.
    assert (HT : Forall (test_ok d) ts <-> Forall (passes_continuous PR P d) tests).
    { clear - Ht HPR HV Hn. induction Ht as [|c t tests ts E Ht IH]; [split; auto|]. inversion HV as [|? ? HVc HV']; subst. specialize (IH HV'). assert (H := test_spec_c d c t n Hn HVc E). split; intros HF; inversion HF; subst; constructor; tauto. }
    rewrite HT. unfold not_seen_unstable, accepted_continuous, mean_error_continuous.
    assert (HC : forall xs, Forall2 (case_ok d) cases (map F xs) <->
      Forall (fun c => exists s, continues_continuous PR d n c s /\ not_seen_outside margin n (ncols (cj_data c)) (cj_data c) (length (cj_times c)) s) cs /\
      Forall2 (fun c x => exists s, continues_continuous PR d n c s /\ relative_error_in_time n (ncols (cj_data c)) (firstn (ncols (cj_data c)) (cj_times c)) (cj_data c) s x) cs xs).
    { clear - Hc HS HPR Hn. induction Hc as [|c case cs cases Ec Hc IH]; intros xs.
      - split.
        + intros H. destruct xs; [|inversion H]. split; constructor.
        + intros [_ H]. inversion H. constructor.
      - inversion HS as [|? ? Sc HS']; subst. specialize (IH HS'). destruct xs as [|x xs]. { split; [intros H; inversion H|intros [_ H]; inversion H]. }
        cbn [map]. assert (HCS := case_spec_c d margin n c case x Hn Sc Ec). specialize (IH xs). split.
        + intros H. inversion H as [|? ? ? ? H1 H2]; subst. apply HCS in H1. destruct H1 as (s & A1 & A2 & A3). apply IH in H2. destruct H2 as [B1 B2]. split; constructor; eauto.
        + intros [H1 H2]. inversion H1 as [|? ? (s & A1 & A2) B1]; subst. inversion H2 as [|? ? ? ? (s' & A1' & A3) B2]; subst.
          assert (s' = s) by (destruct A1, A1'; congruence). subst s'. constructor; [apply HCS; eauto|]. apply IH. auto. }
    split.
    - intros (A & xs & H & ->). apply HC in H. destruct H as [H1 H2]. split; [split; auto|]. exists xs. auto.
    - intros ((A & H1) & xs & H2 & ->). split; auto. exists xs. split; auto. apply HC. auto. Qed.
  Lemma score_total_c d margin n cs total tests ts cases : 0 < n -> Forall (scorable n) cs ->
    Forall2 (fun c case => ccase PR margin (cj_data c) (cj_input c) (cj_times c) = Ok case) cs cases -> mapM (process_ctest PR P) tests = Ok ts ->
    predicts_continuous PR P tests n cs d -> exists v, score ts cases total d = Ok v.
  Proof. intros Hn HS Hc Ht [HallT Hall]. apply AffProofs.mapM_Forall2 in Ht. unfold score.
    assert (HT : exists b, pass_tests d ts = Ok b).
    { clear - Ht HallT. induction Ht as [|c t tests ts E Ht IH]; cbn [pass_tests]; [eauto|]. inversion HallT as [|? ? Hv HallT']; subst. specialize (IH HallT'). unfold process_ctest in E. destruct (encode1 P (ct_ic c)) as [[v|A]|]; cbn [bind] in E; try discriminate. injection E as <-.
      unfold evaluate. cbn [st_predict st_unstable]. destruct (Hv v eq_refl) as [s ->]. cbn [bind]. destruct (negb _); eauto. }
    destruct HT as [[] ->]; cbn [bind]; [|eauto].
    assert (HC : forall e, exists v, sum_errors d cases e = Ok v).
    { clear - Hc HS HPR Hn Hall. induction Hc as [|c case cs cases Ec Hc IH]; intros e; [cbn; eauto|]. inversion HS as [|? ? Sc HS']; subst. inversion Hall as [|? ? Hs1 Hall']; subst. specialize (IH HS' Hall'). cbn [sum_errors].
      assert (Hs : exists s, sc_predict case d = Ok s). { unfold ccase in Ec. destruct (limit_of margin (cj_data c)); [|discriminate]. cbn [bind] in Ec. injection Ec as <-. cbn. destruct Sc as (k & _ & HE & _). replace (nrows (cj_data c)) with n by (symmetry; apply HE). exact Hs1. }
      destruct Hs as [s Es0]. rewrite Es0. cbn [bind]. destruct (sc_unstable case s) eqn:Eu; [eauto|]. destruct (case_total_c d margin n c case s Hn Sc Ec Es0 Eu) as [x ->]. cbn [bind]. apply IH. }
    destruct (HC (F 0)) as [v ->]. cbn [bind]. eauto. Qed.
End Continuous.

(* ---- the data of the search ---- *)
Definition uis (us : option (list infun)) (n : nat) : list (option infun) := match us with None => repeat None n | Some us => map Some us end.
Definition join (x : mat * option infun * vec) : ctraj := {| cj_data := fst (fst x); cj_input := snd (fst x); cj_times := snd x |}.
Lemma encode_mats n0 n p P Qs ks es : trained_parts n p P -> columnwise_lifter n0 n (rp_lift P) -> blocks n0 ks Qs -> mapM (encode1 P) (map M Qs) = Ok es ->
  exists Es, es = map M Es /\ blocks p ks Es /\ Forall2 (fun Q E => encode1 P (M Q) = Ok (M E)) Qs Es.
Proof. intros HP HC HB. assert (EC := encode_columns n0 n p _ HP HC). revert es. induction HB as [|k Q ks Qs HQ HB IH]; intros es E; cbn [map mapM] in E.
  - injection E as <-. exists []. split; [auto|]. split; constructor.
  - destruct (encode1 P (M Q)) as [e|] eqn:E1; [|discriminate]. cbn [bind] in E. destruct (mapM (encode1 P) (map M Qs)) as [es'|]; [|discriminate]. cbn [bind] in E. injection E as <-.
    destruct (IH es' eq_refl) as (Es & -> & HB' & HF). destruct (EC k (M Q) HQ _ E1) as (SE & SK & _). destruct e as [v|Em]; [destruct SK|]. exists (Em :: Es). split; [auto|]. split; constructor; auto. Qed.
Lemma nth_error_combine {A B} (l : list A) (l' : list B) i a b : nth_error l i = Some a -> nth_error l' i = Some b -> nth_error (combine l l') i = Some (a, b).
Proof. revert l l'. induction i as [|i IH]; intros [|x l] [|y l'] H1 H2; cbn in *; try discriminate; [congruence|auto]. Qed.
Lemma nth_error_F2 {A B} (Rel : A -> B -> Prop) l l' i a : Forall2 Rel l l' -> nth_error l i = Some a -> exists b, nth_error l' i = Some b /\ Rel a b.
Proof. intros H. revert i. induction H as [|x y l l' Hxy H IH]; intros [|i] E; cbn in *; try discriminate; [injection E as <-; eauto|auto]. Qed.
Lemma uis_nth us N i : i < N -> (forall l, us = Some l -> length l = N) -> nth_error (uis us N) i = Some (match us with None => None | Some l => nth_error l i end).
Proof. intros Hi HU. destruct us as [l|]; cbn [uis].
  - rewrite nth_error_map. specialize (HU l eq_refl). destruct (nth_error l i) eqn:E; auto. apply nth_error_None in E. lia.
  - apply nth_error_repeat. auto. Qed.

Lemma of_columns_col m u t j : (forall x, length (u x) = m) -> j < length t -> colv m (of_columns m (map u t)) j = u (vget t j).
Proof. intros Hm Hj. rewrite MonoPredict.colv_of_columns; [|apply Forall_forall; intros v Hv; apply in_map_iff in Hv; destruct Hv as (x & <- & _); apply Hm|rewrite map_length; auto].
  rewrite (nth_map_in u t j [] 0%R) by auto. reflexivity. Qed.
Lemma sample_ok u t m a : (forall x, length (u x) = m) -> sample u t = Ok a -> exists U, a = M U /\ is_mat m (length t) U /\ forall j, j < length t -> colv m U j = u (vget t j).
Proof. intros Hm. unfold sample. destruct t as [|t0 t']; [discriminate|]. intros [= <-]. exists (of_columns m (map u (t0 :: t'))). rewrite Hm. split; [auto|]. split.
  - rewrite <- (map_length u (t0 :: t')). apply MonoPredict.is_mat_of_columns.
  - intros j Hj. apply of_columns_col; auto. Qed.

Definition sample_all (us : option (list infun)) (ts : list vec) : res (option (list arr)) :=
  match us with None => Ok None | Some [] => Err IndexError | Some us => do l <- mapM (fun ut => sample (fst ut) (snd ut)) (combine us ts); Ok (Some l) end.
Lemma sample_all_ok us ts Us n : sample_all us ts = Ok Us -> length ts = n -> (forall l, us = Some l -> length l = n) -> sampled us ts Us /\ (forall l, Us = Some l -> length l = n).
Proof. intros E Ht Hu. destruct us as [[|u us]|]; cbn [sample_all] in E; [discriminate| |injection E as <-; split; [exact I|discriminate]].
  destruct (mapM (fun ut => sample (fst ut) (snd ut)) (combine (u :: us) ts)) as [l|] eqn:El; [|discriminate]. injection E as <-. apply AffProofs.mapM_Forall2 in El. specialize (Hu _ eq_refl).
  assert (Hl : length l = n). { rewrite <- (F2_length _ _ _ El), combine_length. lia. } split; [|intros l' [= <-]; auto]. cbn [sampled]. split; [lia|].
  intros i u' t m H1 H2 Hm. destruct (nth_error_F2 _ _ _ i (u', t) El (nth_error_combine _ _ _ _ _ H1 H2)) as (a & Ha & Ea). cbn [fst snd] in Ea. destruct (sample_ok _ _ _ _ Hm Ea) as (U & -> & HU). eauto. Qed.

(* the first fit, and then the search *)
Definition cargs (ts : list vec) (Qs : list arr) (Zs : option (list arr)) (us : option (list infun)) (len : R) : res (option (list arr)) :=
  do q <- fix_single (Several Qs Zs None); do _ <- match ts with [] => Err IndexError | _ => Ok tt end;
  raise_if (existsb (fun tQ => negb (length (fst tQ) =? width_of (snd tQ))) (combine ts Qs)) with DimensionalityError;;
  do Us <- sample_all us ts; raise_if (if Rlt_dec len 0 then true else false) with ValueError;; Ok Us.
Lemma cargs_ok ts Qs Zs us len Us n0 ks : 0 < n0 -> cargs ts (map M Qs) Zs us len = Ok Us -> length ts = length Qs -> (forall l, us = Some l -> length l = length Qs) -> blocks n0 ks Qs ->
  Qs <> [] /\ sampled us ts Us /\ (forall l, Us = Some l -> length l = length Qs) /\ (0 <= len)%R /\ Forall2 (fun k t => length t = k) ks ts.
Proof. intros Hn0 E Ht Hu HB. unfold cargs in E. destruct (fix_single (Several (map M Qs) Zs None)) as [q|] eqn:EF; [|discriminate]. cbn [bind] in E. destruct ts as [|t0 ts0] eqn:Ets; [discriminate|]. rewrite <- Ets in *. cbn [bind] in E.
  destruct (existsb _ (combine ts (map M Qs))) eqn:EX; [discriminate|]. destruct (sample_all us ts) as [Us'|] eqn:ES; [|discriminate]. destruct (Rlt_dec len 0) as [|Hlen]; [discriminate|]. cbn in E. injection E as ->.
  destruct (sample_all_ok us ts Us (length Qs) ES Ht Hu) as [S1 S2]. split. { intros ->. cbn in Ht. subst ts. discriminate. } split; [auto|]. split; [auto|]. split; [lra|].
  rewrite GridFinal.existsb_false in EX. clear - EX HB Ht Hn0. revert ts Ht EX. induction HB as [|k Q ks Qs HQ HB IH]; intros [|t ts] Ht EX; try discriminate; constructor.
  - assert (H := EX (t, M Q) (or_introl eq_refl)). cbn [fst snd width_of] in H. rewrite (ncols_is_mat n0 k Q HQ Hn0) in H. destruct (Nat.eqb_spec (length t) k); [auto|discriminate].
  - apply IH; [cbn in Ht; lia|]. intros x Hx. apply EX. right. auto. Qed.

Lemma continuous_eq LX PR bounded nm r c ts Qs Zs us ft fb factory only len margin tests :
  regselect_continuous LX PR bounded nm r c ts Qs Zs us ft fb factory only len margin tests =
  if negb (rm_cont r) then (r, Err AttributeError)
  else if negb (has_regularizer (rm_model r)) then (r, Err AttributeError)
  else match cargs ts Qs Zs us len with
    | Err e => (r, Err e)
    | Ok Us => match rom_fit_with (fit_solver LX) r (Several Qs Zs Us) ft fb with
        | (r', Err e) => (r', Err e)
        | (r', Ok _) =>
            match (do es <- mapM (encode1 (rm_parts r')) Qs; do Es <- mapM as_mat_r es; do _ <- mapM (limit_of margin) Es; do tests <- mapM (process_ctest PR (rm_parts r')) tests;
                   do tds <- mapM (extend_times len) ts;
                   do cases <- mapM (fun x => ccase PR margin (fst (fst x)) (snd (fst x)) (snd x)) (combine (combine Es (uis us (length Es))) tds);
                   Ok (tests, cases)) with
            | Err e => (r', Err e)
            | Ok (tests, cases) =>
                let '(d, x) := select (model_update LX factory) bounded nm only c tests cases (length Qs) (rm_model r') in ({| rm_parts := rm_parts r'; rm_ddt := rm_ddt r'; rm_model := d |}, x)
            end
        end
    end.
Proof. reflexivity. Qed.

Lemma join_cases PR margin l cases : mapM (fun x => ccase PR margin (fst (fst x)) (snd (fst x)) (snd x)) l = Ok cases ->
  Forall2 (fun c case => ccase PR margin (cj_data c) (cj_input c) (cj_times c) = Ok case) (map join l) cases.
Proof. intros E. apply AffProofs.mapM_Forall2 in E. induction E; cbn [map]; constructor; auto. Qed.
Lemma join_cases_iff PR margin l cases : Forall2 (fun c case => ccase PR margin (cj_data c) (cj_input c) (cj_times c) = Ok case) (map join l) cases ->
  mapM (fun x => ccase PR margin (fst (fst x)) (snd (fst x)) (snd x)) l = Ok cases.
Proof. intros E. apply AffProofs.mapM_Forall2. revert cases E. induction l as [|a l IH]; intros cases E; inversion E; subst; constructor; auto. Qed.

(* the trajectories *)
Lemma trajs_ok n0 n p P Qs ks Es us len ts tds : 0 < n0 -> 0 < p -> trained_parts n p P -> columnwise_lifter n0 n (rp_lift P) -> blocks n0 ks Qs -> Forall2 (fun Q E => encode1 P (M Q) = Ok (M E)) Qs Es ->
  blocks p ks Es -> Forall (lt 0) ks -> Forall2 (fun k t => length t = k) ks ts -> Forall in_order ts -> mapM (extend_times len) ts = Ok tds -> (forall l, us = Some l -> length l = length Qs) ->
  let cs := map join (combine (combine Es (uis us (length Es))) tds) in ctrajs P us len ts Qs cs /\ Forall (scorable p) cs /\ length cs = length Qs.
Proof. intros Hn0 Hp HP HC HB HF HE Hk Hkt Ho Etd Hu cs. apply AffProofs.mapM_Forall2 in Etd. assert (L1 := F2_length _ _ _ HF). assert (L2 := F2_length _ _ _ HB). assert (L3 := F2_length _ _ _ Hkt). assert (L4 := F2_length _ _ _ Etd).
  assert (L5 : length (uis us (length Es)) = length Es). { destruct us as [l|]; cbn; [rewrite map_length, (Hu l eq_refl); lia|apply repeat_length]. }
  assert (HL : length cs = length Qs). { unfold cs. rewrite map_length, !combine_length. lia. }
  assert (HN : forall i Q t, nth_error Qs i = Some Q -> nth_error ts i = Some t -> exists E td, nth_error Es i = Some E /\ nth_error tds i = Some td /\ encode1 P (M Q) = Ok (M E) /\ extend_times len t = Ok td /\
    nth_error cs i = Some {| cj_data := E; cj_input := (match us with None => None | Some l => nth_error l i end); cj_times := td |}).
  { intros i Q t HQ Ht. destruct (nth_error_F2 _ _ _ _ _ HF HQ) as (E & E1 & E2). destruct (nth_error_F2 _ _ _ _ _ Etd Ht) as (td & E3 & E4). exists E, td. do 4 (split; [auto|]).
    assert (Hi : i < length Es) by (apply nth_error_Some; congruence). unfold cs. rewrite nth_error_map.
    rewrite (nth_error_combine _ _ _ (E, match us with None => None | Some l => nth_error l i end) td); [reflexivity| |auto]. apply nth_error_combine; auto. apply uis_nth; auto. intros l El. rewrite (Hu l El). lia. }
  split; [|split; [|auto]].
  - split; [auto|]. intros i Q t HQ Ht. destruct (HN i Q t HQ Ht) as (E & td & _ & _ & E1 & E2 & E3). eexists. split; [exact E3|]. cbn. auto.
  - apply Forall_forall. intros c Hc. apply In_nth_error in Hc. destruct Hc as [i Hi]. assert (Hlt : i < length cs) by (apply nth_error_Some; congruence).
    destruct (nth_error Qs i) as [Q|] eqn:EQ; [|apply nth_error_None in EQ; lia]. destruct (nth_error ts i) as [t|] eqn:Et; [|apply nth_error_None in Et; lia].
    destruct (nth_error ks i) as [k|] eqn:Ek; [|apply nth_error_None in Ek; lia].
    destruct (HN i Q t EQ Et) as (E & td & E1 & E2 & E3 & E4 & E5). rewrite E5 in Hi. injection Hi as <-. exists k. cbn.
    destruct (nth_error_F2 _ _ _ _ _ HE Ek) as (E' & F1 & F2). rewrite E1 in F1. injection F1 as <-. destruct (nth_error_F2 _ _ _ _ _ Hkt Ek) as (t' & F3 & F4). rewrite Et in F3. injection F3 as <-.
    destruct (extend_prefix _ _ _ E4) as [G1 G2]. rewrite F4 in G1, G2. rewrite Forall_forall in Hk, Ho. split; [apply Hk; eapply nth_error_In; eauto|]. split; [auto|]. split; [auto|]. rewrite G1. apply Ho. eapply nth_error_In; eauto. Qed.

Lemma test_dims n0 n p P tests : trained_parts n p P -> columnwise_lifter n0 n (rp_lift P) -> Forall (fun t => exists v, ct_ic t = V v /\ length v = n0) tests ->
  Forall (fun c => forall v, encode1 P (ct_ic c) = Ok (V v) -> length v = p) tests.
Proof. intros HP HC H. assert (EC := encode_columns n0 n p _ HP HC). eapply Forall_impl; [|exact H]. cbn beta. intros t (v & -> & Hv) w Ew. destruct (EC 1 (V v) (conj Hv eq_refl) _ Ew) as (S1 & _). apply S1. Qed.

Lemma continuous_best LX PR bounded nm r c ts Qs Zs us ft fb factory only len margin tests r' n0 n p ks :
  solves_well PR -> (forall a b, honest [] (bounded a b)) -> (forall x, honest [] (nm x)) ->
  same_length (map M Qs) Zs -> length ts = length Qs -> (forall l, us = Some l -> length l = length Qs) -> Forall in_order ts ->
  blocks n0 ks Qs -> Forall (lt 0) ks -> 0 < n0 -> 0 < p -> trained_parts n p (rm_parts r') -> columnwise_lifter n0 n (rp_lift (rm_parts r')) ->
  Forall (fun t => exists v, ct_ic t = V v /\ length v = n0) tests ->
  regselect_continuous LX PR bounded nm r c ts (map M Qs) Zs us ft fb factory only len margin tests = (r', Ok tt) ->
  exists r1 Us es cs q e, sampled us ts Us /\ prepared LX r r1 ft fb (map M Qs) Zs Us es /\ rm_parts r' = rm_parts r1 /\ rm_ddt r' = rm_ddt r1 /\
    ctrajs (rm_parts r') us len ts Qs cs /\
    retrained LX factory (rm_model r1) q (rm_model r') /\
    not_seen_unstable PR (rm_parts r') tests margin p cs (rm_model r') /\
    mean_error_continuous PR p cs (length Qs) (rm_model r') e /\
    forall q' d' e', In q' (points c) -> retrained LX factory (rm_model r1) q' d' -> not_seen_unstable PR (rm_parts r') tests margin p cs d' ->
      mean_error_continuous PR p cs (length Qs) d' e' -> (e <= e')%R.
Proof. intros HPR Hb Hn HZ Ht Hu Ho HB Hk Hn0 Hp HP HC Hic E. rewrite continuous_eq in E. destruct (rm_cont r); cbn [negb] in E; [|discriminate]. destruct (has_regularizer (rm_model r)); cbn [negb] in E; [|discriminate].
  destruct (cargs ts (map M Qs) Zs us len) as [Us|] eqn:EA; [|discriminate]. destruct (cargs_ok _ _ _ _ _ _ n0 ks Hn0 EA Ht Hu HB) as (HQ & HS & HUl & Hlen & Hkt).
  destruct (rom_fit_with (fit_solver LX) r (Several (map M Qs) Zs Us) ft fb) as [r1 [es|]] eqn:E1; [|discriminate].
  assert (HU : same_length (map M Qs) Us) by (intros l El; rewrite map_length; auto). assert (HPp := first_fit_ok _ _ _ _ _ _ _ _ _ HZ HU E1).
  assert (EP : rm_parts r' = rm_parts r1 /\ rm_ddt r' = rm_ddt r1). { destruct (do es <- mapM (encode1 (rm_parts r1)) (map M Qs); _) as [[ts' cs]|]; [|discriminate]. destruct (select _ _ _ _ _ _ _ _ _) as [d x]. inversion E. auto. }
  destruct EP as [EP ED']. rewrite EP in HP, HC |- *.
  destruct (mapM (encode1 (rm_parts r1)) (map M Qs)) as [es'|] eqn:Ee; [|discriminate]. cbn [bind] in E. destruct (encode_mats n0 n p _ _ _ _ HP HC HB Ee) as (Es & -> & HE1 & HE2). rewrite as_mats_r in E. cbn [bind] in E.
  destruct (mapM (limit_of margin) Es) as [lims|]; [|discriminate]. cbn [bind] in E. destruct (mapM (process_ctest PR (rm_parts r1)) tests) as [tts|] eqn:E5; [|discriminate]. cbn [bind] in E.
  destruct (mapM (extend_times len) ts) as [tds|] eqn:E6; [|discriminate]. cbn [bind] in E.
  destruct (mapM (fun x => ccase PR margin (fst (fst x)) (snd (fst x)) (snd x)) (combine (combine Es (uis us (length Es))) tds)) as [cases|] eqn:E7; [|discriminate]. cbn [bind] in E. apply join_cases in E7.
  destruct (trajs_ok n0 n p _ Qs ks Es us len ts tds Hn0 Hp HP HC HB HE2 HE1 Hk Hkt Ho E6 Hu) as (T1 & T2 & T3). set (cs := map join (combine (combine Es (uis us (length Es))) tds)) in *.
  rewrite map_length in E. destruct (select (model_update LX factory) bounded nm only c tts cases (length Qs) (rm_model r1)) as [d x] eqn:E3. inversion E; subst r' x; clear E. cbn [rm_parts rm_model rm_ddt] in *.
  destruct (select_ok (model_update LX factory) bounded nm Hb Hn (variant (rm_model r1)) (rm_model r1) (variant_refl _) (fun d p H => update_variant LX factory _ d p H) tts cases (length Qs) only c d E3) as (q & e & Eq & Es0 & Hmin).
  assert (HSS : forall d e, score tts cases (length Qs) d = Ok (F e) <-> not_seen_unstable PR (rm_parts r1) tests margin p cs d /\ mean_error_continuous PR p cs (length Qs) d e).
  { intros. apply (score_spec_c PR HPR (rm_parts r1)); auto. eapply test_dims; eauto. }
  exists r1, Us, es, cs, q, e. apply HSS in Es0. destruct Es0 as [S1 S2]. apply retrained_iff in Eq.
  do 8 (split; [solve [auto]|]).
  intros q' d' e' Hq' Hd' H1 H2. apply retrained_iff in Hd'. destruct (Hmin q' d' Hq' Hd') as (v & Ev & Hv). apply Hv. assert (Hs : score tts cases (length Qs) d' = Ok (F e')) by (apply HSS; auto). congruence. Qed.

(* ---- what happens otherwise ---- *)
Lemma cases_total_c PR margin p (l : list (mat * option infun * vec)) : 0 < p -> Forall (scorable p) (map join l) -> exists cases, mapM (fun x => ccase PR margin (fst (fst x)) (snd (fst x)) (snd x)) l = Ok cases.
Proof. intros Hp. induction l as [|x l IH]; intros H; [exists []; reflexivity|]. cbn [map] in H. inversion H as [|? ? (k & Hk & HE & _) H']; subst. destruct (IH H') as [cs Ecs]. cbn [mapM]. unfold ccase at 1. cbn [join cj_data] in HE.
  destruct (limit_total p k margin _ HE Hp Hk) as [lim ->]. cbn [bind]. rewrite Ecs. cbn. eauto. Qed.
Lemma tests_total_c PR P tests : Forall (fun t => exists v, encode1 P (ct_ic t) = Ok (V v)) tests -> exists ts, mapM (process_ctest PR P) tests = Ok ts.
Proof. intros H. induction H as [|t tests [v Ev] H [ts IH]]; [exists []; reflexivity|]. cbn [mapM]. unfold process_ctest at 1. rewrite Ev. cbn [bind]. rewrite IH. cbn. eauto. Qed.
Lemma limits_total margin p ks Es : 0 < p -> Forall (lt 0) ks -> blocks p ks Es -> exists lims, mapM (limit_of margin) Es = Ok lims.
Proof. intros Hp Hk H. induction H as [|k E ks Es HE H IH]; [exists []; reflexivity|]. inversion Hk; subst. destruct (IH H3) as [l El]. cbn [mapM]. destruct (limit_total p k margin E HE Hp) as [lim ->]; [auto|]. cbn [bind]. rewrite El. cbn. eauto. Qed.
Lemma extend_all_total len ts : Forall (fun t => exists td, extend_times len t = Ok td) ts -> exists tds, mapM (extend_times len) ts = Ok tds.
Proof. intros H. induction H as [|t ts [td E] H [tds IH]]; [exists []; reflexivity|]. cbn [mapM]. rewrite E. cbn [bind]. rewrite IH. cbn. eauto. Qed.
Lemma ctrajs_unique P us len ts Qs cs cs' : length ts = length Qs -> ctrajs P us len ts Qs cs -> ctrajs P us len ts Qs cs' -> cs = cs'.
Proof. intros Hl [L1 H1] [L2 H2]. apply list_ext_nth. intros i.
  destruct (nth_error cs i) as [c|] eqn:E1; [|apply nth_error_None in E1; symmetry; apply nth_error_None; lia]. assert (Hi : i < length cs) by (apply nth_error_Some; congruence).
  destruct (nth_error Qs i) as [Q|] eqn:EQ; [|apply nth_error_None in EQ; lia]. destruct (nth_error ts i) as [t|] eqn:Et; [|apply nth_error_None in Et; lia].
  destruct (H1 i Q t EQ Et) as (c1 & F1 & A1 & A2 & A3). destruct (H2 i Q t EQ Et) as (c2 & F2 & B1 & B2 & B3). rewrite F2. destruct c as [x y z], c1 as [x1 y1 z1], c2 as [x2 y2 z2]. cbn in *. congruence. Qed.

Section OutcomeC.
  Variables (LX : lsx) (PR : cpredict) (bounded : R -> R -> strat) (nm : list fnum -> strat) (r : rom) (c : cand_arg) (ts : list vec) (Qs : list mat) (Zs : option (list arr)) (us : option (list infun))
    (ft : bool) (fb : option BasisModel.ext) (factory : param -> res sreg) (only : bool) (len margin : R) (tests : list ctest) (n0 n p : nat) (ks : list nat) (Us : option (list arr)) (r1 : rom) (es : list arr) (cs : list ctraj).
  Hypotheses (HPR : solves_well PR) (H1 : rm_cont r = true) (H2 : has_regularizer (rm_model r) = true) (HZ : same_length (map M Qs) Zs) (Hlen : (0 <= len)%R) (HQ : Qs <> [])
    (Ht : Forall2 (fun k t => length t = k) ks ts) (Ho : Forall in_order ts) (Hu : forall l, us = Some l -> length l = length Qs) (Hc : well_shaped c) (HB : blocks n0 ks Qs) (Hk : Forall (lt 0) ks) (H0 : 0 < n0) (Hp : 0 < p)
    (HS : sample_all us ts = Ok Us)
    (H5 : rom_fit_with (fit_solver LX) r (Several (map M Qs) Zs Us) ft fb = (r1, Ok es)) (HP : trained_parts n p (rm_parts r1)) (HC : columnwise_lifter n0 n (rp_lift (rm_parts r1)))
    (Hic : Forall (fun t => exists v, ct_ic t = V v /\ length v = n0) tests) (Htest : Forall (fun t => exists v, encode1 (rm_parts r1) (ct_ic t) = Ok (V v)) tests)
    (Hcs : ctrajs (rm_parts r1) us len ts Qs cs)
    (Hall : forall q d, In q (points c) -> retrained LX factory (rm_model r1) q d -> predicts_continuous PR (rm_parts r1) tests p cs d).
  Lemma Hlts : length ts = length Qs.
  Proof. rewrite <- (F2_length _ _ _ Ht). apply (F2_length _ _ _ HB). Qed.
  Lemma cargs_fine : cargs ts (map M Qs) Zs us len = Ok Us.
  Proof. unfold cargs. destruct Qs as [|Q0 Qs0] eqn:EQ; [congruence|]. rewrite <- EQ in *. replace (fix_single (Several (map M Qs) Zs None)) with (Ok (map M Qs, Zs, @None (list arr))) by (rewrite EQ; reflexivity). cbn [bind].
    assert (Hl := Hlts). destruct ts as [|t0 ts'] eqn:Ets; [subst; discriminate|]. rewrite <- Ets in *. cbn [bind].
    replace (existsb _ (combine ts (map M Qs))) with false.
    - rewrite HS. cbn [bind]. destruct (Rlt_dec len 0); [lra|]. reflexivity.
    - symmetry. apply GridFinal.existsb_false. intros [t q] Hx. cbn [fst snd]. apply In_nth_error in Hx. destruct Hx as [i Hi].
      assert (HX : exists k Q, nth_error ks i = Some k /\ nth_error Qs i = Some Q /\ q = M Q /\ nth_error ts i = Some t).
      { clear - Hi Hl HB Ht. revert i ts Qs Hi Hl HB Ht. induction ks as [|k ks' IH]; intros i ts Qs Hi Hl HB Ht; inversion HB; inversion Ht; subst; [destruct i; discriminate|].
        destruct i as [|i]; cbn in Hi |- *; [injection Hi as <- <-; eauto 10|]. eapply IH; eauto. }
      destruct HX as (k & Q & E1 & E2 & -> & E4). destruct (nth_error_F2 _ _ _ _ _ HB E1) as (Q' & F1 & F2). rewrite E2 in F1. injection F1 as <-. destruct (nth_error_F2 _ _ _ _ _ Ht E1) as (t' & F3 & F4). rewrite E4 in F3. injection F3 as <-.
      cbn [width_of]. rewrite (ncols_is_mat n0 k Q F2 H0), F4, Nat.eqb_refl. reflexivity. Qed.
  Lemma setup_c : exists tts cases, Forall (scorable p) cs /\ Forall2 (fun c case => ccase PR margin (cj_data c) (cj_input c) (cj_times c) = Ok case) cs cases /\ mapM (process_ctest PR (rm_parts r1)) tests = Ok tts /\
    regselect_continuous LX PR bounded nm r c ts (map M Qs) Zs us ft fb factory only len margin tests =
      (let '(d, x) := select (model_update LX factory) bounded nm only c tts cases (length Qs) (rm_model r1) in ({| rm_parts := rm_parts r1; rm_ddt := rm_ddt r1; rm_model := d |}, x)).
  Proof. assert (Hl := Hlts). rewrite continuous_eq, H1, H2. cbn [negb]. rewrite cargs_fine, H5.
    assert (HEnc : exists Es, mapM (encode1 (rm_parts r1)) (map M Qs) = Ok (map M Es)).
    { destruct Hcs as [L1 H]. assert (HG : forall i Q t, nth_error Qs i = Some Q -> nth_error ts i = Some t -> exists E, encode1 (rm_parts r1) (M Q) = Ok (M E)).
      { intros i Q t F1 F2. destruct (H i Q t F1 F2) as (c2 & _ & G2 & _). eauto. }
      clear - HG Hl. revert HG Hl. generalize ts. generalize Qs. clear. intros Qs. induction Qs as [|Q Qs' IH]; intros [|t ts] HG Hl; try discriminate; [exists []; reflexivity|].
      destruct (HG 0 Q t eq_refl eq_refl) as (E & EE). destruct (IH ts) as [Es EEs]; [intros i Q' t' F1 F2; apply (HG (S i) Q' t'); auto|cbn in Hl; lia|].
      exists (E :: Es). cbn [map mapM]. rewrite EE. cbn [bind]. rewrite EEs. reflexivity. }
    destruct HEnc as [Es EEs]. destruct (encode_mats n0 n p _ _ _ _ HP HC HB EEs) as (Es' & EE & HE1 & HE2). assert (Es' = Es). { clear - EE. revert Es EE. induction Es' as [|a l IH]; intros [|b l'] E; try discriminate; auto. injection E as -> E. f_equal. auto. } subst Es'.
    rewrite EEs. cbn [bind]. rewrite as_mats_r. cbn [bind]. destruct (limits_total margin p ks Es Hp Hk HE1) as [lims ->]. cbn [bind]. destruct (tests_total_c PR _ tests Htest) as [tts Etts]. rewrite Etts. cbn [bind].
    assert (HTD : exists tds, mapM (extend_times len) ts = Ok tds).
    { apply extend_all_total. apply Forall_forall. intros t HIt. apply In_nth_error in HIt. destruct HIt as [i Ei]. assert (Hi : i < length ts) by (apply nth_error_Some; congruence).
      destruct (nth_error Qs i) as [Q|] eqn:EQ; [|apply nth_error_None in EQ; lia]. destruct Hcs as [_ HX]. destruct (HX i Q t EQ Ei) as (c1 & _ & _ & _ & E). eauto. }
    destruct HTD as [tds Etd]. rewrite Etd. cbn [bind]. destruct (trajs_ok n0 n p _ Qs ks Es us len ts tds H0 Hp HP HC HB HE2 HE1 Hk Ht Ho Etd Hu) as (T1 & T2 & T3).
    rewrite <- (ctrajs_unique _ _ _ _ _ _ _ Hl Hcs T1) in *. assert (HJ := ctrajs_unique _ _ _ _ _ _ _ Hl Hcs T1).
    destruct (cases_total_c PR margin p (combine (combine Es (uis us (length Es))) tds) Hp) as [cases Ec]; [rewrite <- HJ; auto|]. rewrite Ec. cbn [bind]. exists tts, cases. split; [auto|]. split; [rewrite HJ; apply join_cases; auto|]. split; [auto|]. rewrite map_length. reflexivity. Qed.
  Lemma continuous_none : (forall q d, In q (points c) -> retrained LX factory (rm_model r1) q d -> not_seen_unstable PR (rm_parts r1) tests margin p cs d -> forall e, ~ mean_error_continuous PR p cs (length Qs) d e) ->
    exists r', regselect_continuous LX PR bounded nm r c ts (map M Qs) Zs us ft fb factory only len margin tests = (r', Err RuntimeError).
  Proof. intros Hno. destruct setup_c as (tts & cases & HE & Ecs & Ets & ->).
    destruct (select_none (model_update LX factory) bounded nm (variant (rm_model r1)) (rm_model r1) (variant_refl _) (fun d p H => update_variant LX factory _ d p H) tts cases (length Qs) only c Hc) as (d' & _ & ->).
    - intros q d Hq Ed. apply retrained_iff in Ed. destruct (score_total_c PR HPR (rm_parts r1) d margin p cs (length Qs) tests tts cases Hp HE Ecs Ets (Hall q d Hq Ed)) as [v Ev].
      exists v. split; auto. intros e ->. apply (score_spec_c PR HPR (rm_parts r1) d margin p cs (length Qs) tests tts cases e Hp HE (test_dims _ _ _ _ _ HP HC Hic) Ecs Ets) in Ev. destruct Ev. eapply Hno; eauto.
    - eauto. Qed.
  Lemma continuous_some : only = true -> (exists q d e, In q (points c) /\ retrained LX factory (rm_model r1) q d /\ not_seen_unstable PR (rm_parts r1) tests margin p cs d /\ mean_error_continuous PR p cs (length Qs) d e) ->
    exists r', regselect_continuous LX PR bounded nm r c ts (map M Qs) Zs us ft fb factory only len margin tests = (r', Ok tt).
  Proof. intros Honly (q & d & e & Hq & Hr & Hs & He). destruct setup_c as (tts & cases & HE & Ecs & Ets & ->). rewrite Honly.
    destruct (select_some (model_update LX factory) bounded nm (variant (rm_model r1)) (rm_model r1) (variant_refl _) (fun d p H => update_variant LX factory _ d p H) tts cases (length Qs) c Hc) as (d' & ->).
    - intros q' d' Hq' Ed. apply retrained_iff in Ed. apply (score_total_c PR HPR (rm_parts r1) d' margin p cs (length Qs) tests tts cases Hp HE Ecs Ets (Hall q' d' Hq' Ed)).
    - exists q, d, e. split; auto. split; [apply retrained_iff; auto|]. apply (score_spec_c PR HPR (rm_parts r1) d margin p cs (length Qs) tests tts cases e Hp HE (test_dims _ _ _ _ _ HP HC Hic) Ecs Ets). auto.
    - eauto. Qed.
End OutcomeC.

(* a solution without nan that is not seen unstable is stable, if the data vary *)
Lemma seen_stable PR P tests margin n cs d : not_seen_unstable PR P tests margin n cs d ->
  Forall (fun c => (exists m, is_spread n (ncols (cj_data c)) (cj_data c) m /\ (margin * m <> 0)%R) /\ forall s, continues_continuous PR d n c s -> ~ has_nan s) cs -> stable_continuous PR P tests margin n cs d.
Proof. intros [H1 H2] H. split; auto. rewrite Forall_forall in *. intros c Hc. destruct (H2 c Hc) as (s & Hs & [Hn|Hm]); destruct (H c Hc) as ((m & Hm1 & Hm2) & Hno).
  - destruct (Hno s Hs Hn).
  - exists s. split; auto. apply (Hm m); auto. Qed.
Lemma stable_seen PR P tests margin n cs d : stable_continuous PR P tests margin n cs d -> not_seen_unstable PR P tests margin n cs d.
Proof. intros [H1 H2]. split; auto. rewrite Forall_forall in *. intros c Hc. destruct (H2 c Hc) as (s & Hs & Hw). exists s. split; auto. right. auto. Qed.

(* refusals *)
Lemma continuous_refuses LX PR bounded nm r c ts Qs Zs us ft fb factory only len margin tests :
  let run := regselect_continuous LX PR bounded nm r c ts (map M Qs) Zs us ft fb factory only len margin tests in
  (rm_cont r = false -> run = (r, Err AttributeError)) /\
  (rm_cont r = true -> has_regularizer (rm_model r) = false -> run = (r, Err AttributeError)) /\
  (rm_cont r = true -> has_regularizer (rm_model r) = true -> Qs <> [] ->
     (forall i t Q, nth_error ts i = Some t -> nth_error Qs i = Some Q -> length t <> ncols Q -> run = (r, Err DimensionalityError)) /\
     (us = None -> ts <> [] -> (forall i t Q, nth_error ts i = Some t -> nth_error Qs i = Some Q -> length t = ncols Q) -> (len < 0)%R -> run = (r, Err ValueError))).
Proof. cbv zeta. rewrite continuous_eq. split; [intros ->; auto|]. split; [intros -> ->; auto|]. intros -> -> HQ. cbn [negb]. unfold cargs. replace (fix_single (Several (map M Qs) Zs None)) with (Ok (map M Qs, Zs, @None (list arr))) by (destruct Qs; [congruence|reflexivity]). cbn [bind]. split.
  - intros i t Q Et EQ Hne. destruct ts as [|t0 ts'] eqn:Ets; [destruct i; discriminate|]. rewrite <- Ets in *. cbn [bind].
    replace (existsb _ (combine ts (map M Qs))) with true; [auto|]. symmetry. apply existsb_exists. exists (t, M Q). split.
    + eapply nth_error_In. apply nth_error_combine; [exact Et|]. rewrite nth_error_map, EQ. reflexivity.
    + cbn. destruct (Nat.eqb_spec (length t) (ncols Q)); [congruence|auto].
  - intros -> Hts Hal Hlen. destruct ts as [|t0 ts'] eqn:Ets; [congruence|]. rewrite <- Ets in *. cbn [bind].
    replace (existsb _ (combine ts (map M Qs))) with false.
    + cbn [sample_all bind]. destruct (Rlt_dec len 0); [auto|lra].
    + symmetry. apply GridFinal.existsb_false. intros [t q] Hx. apply In_nth_error in Hx. destruct Hx as [i Hi]. cbn [fst snd].
      assert (HX : exists Q, nth_error Qs i = Some Q /\ q = M Q /\ nth_error ts i = Some t).
      { clear - Hi. revert ts Qs Hi. induction i as [|i IH]; intros [|t' ts] [|Q' Qs] Hi; cbn in *; try discriminate; [injection Hi as <- <-; eauto|eauto]. }
      destruct HX as (Q & E1 & -> & E3). cbn [width_of]. rewrite (Hal i t Q E3 E1), Nat.eqb_refl. auto. Qed.

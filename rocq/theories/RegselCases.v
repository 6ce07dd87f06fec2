(* RegselCases.v -- stability limits, stability of predictions and their errors. *)
From Coq Require Import ZArith Reals Lia Lra.
From Verif Require Import LinAlg MatAlg PreStats PostNorm PostFinal GridFinal RomFit.
From Verif Require Export RegselUpdate.
#[local] Open Scope nat_scope.

Lemma spread_unique n k E m m' : is_spread n k E m -> is_spread n k E m' -> m = m'.
Proof. intros (A & i & j & Hi & Hj & Hm) (B & i' & j' & Hi' & Hj' & Hm'). specialize (A i' j' Hi' Hj'). specialize (B i j Hi Hj). lra. Qed.
Lemma shift_mean n k E i : is_mat n k E -> i < n -> nth i (shifts_of E) 0%R = row_mean k E i.
Proof. intros HE Hi. destruct HE as [HL HF]. unfold shifts_of. rewrite (nth_map_in _ E i 0%R []) by lia. unfold vmean, row_mean.
  assert (Hr : length (nth i E []) = k) by (rewrite Forall_forall in HF; apply HF, nth_In; lia). rewrite Hr. f_equal. rewrite lsum_nth. rewrite Hr. reflexivity. Qed.
Lemma limit_spec n k margin E lim : is_mat n k E -> limit_of margin E = Ok lim ->
  0 < n /\ 0 < k /\ exists m, is_spread n k E m /\ lim = if Req_EM_T (margin * m) 0 then None else Some (margin * m)%R.
Proof. intros HE E1. unfold limit_of in E1. destruct (PreModel.vmax _) as [m|] eqn:Em; [|discriminate]. cbn [bind] in E1. injection E1 as <-. apply vmax_ok in Em.
  assert (HI : forall x, In x (concat (map2 (fun row c => map (fun x => Rabs (x - c)) row) E (shifts_of E))) <-> exists i j, i < n /\ j < k /\ x = Rabs (mget E i j - row_mean k E i)).
  { intros x. destruct HE as [HL HF]. assert (HLs : length (shifts_of E) = n) by (unfold shifts_of; rewrite map_length; auto). rewrite in_concat. split.
    - intros (row & Hrow & Hx). apply (In_nth _ _ []) in Hrow. destruct Hrow as (i & Hi & <-). rewrite map2_length in Hi. rewrite HLs in Hi.
      rewrite (map2_nth _ E (shifts_of E) i [] 0%R []) in Hx by lia. apply in_map_iff in Hx. destruct Hx as (y & <- & Hy). apply (In_nth _ _ 0%R) in Hy. destruct Hy as (j & Hj & <-).
      exists i, j. split; [lia|]. split. { rewrite Forall_forall in HF. rewrite (HF (nth i E [])) in Hj; auto. apply nth_In. lia. } f_equal. f_equal. apply (shift_mean n); [split; auto|lia].
    - intros (i & j & Hi & Hj & ->). exists (map (fun x => Rabs (x - row_mean k E i)) (nth i E [])). split.
      + rewrite <- (shift_mean n k E i) by (try split; auto). rewrite <- (map2_nth (fun row c => map (fun x => Rabs (x - c)) row) E (shifts_of E) i [] 0%R []) by lia. apply nth_In. rewrite map2_length. lia.
      + apply in_map_iff. exists (mget E i j). split; auto. unfold mget. apply nth_In. rewrite Forall_forall in HF. rewrite (HF (nth i E [])); auto. apply nth_In. lia. }
  destruct Em as [Hin Hmax]. apply HI in Hin. destruct Hin as (i & j & Hi & Hj & Hm). split; [lia|]. split; [lia|]. exists m. split; auto. split; [|exists i, j; auto].
  intros a b Ha Hb. apply Hmax. apply HI. eauto. Qed.
Lemma limit_total n k margin E : is_mat n k E -> 0 < n -> 0 < k -> exists lim, limit_of margin E = Ok lim.
Proof. intros HE Hn Hk. unfold limit_of. destruct (vmax_total (concat (map2 (fun row c => map (fun x => Rabs (x - c)) row) E (shifts_of E)))) as [m Em].
  - destruct HE as [HL HF]. destruct E as [|row E]; [cbn in HL; lia|]. inversion HF; subst. destruct row as [|x row]; [cbn in Hk; lia|]. discriminate.
  - rewrite Em. cbn. eauto. Qed.

(* stability of the prediction of a trajectory *)
Lemma sel_discrete_eq E lim s : sel_unstable_discrete E lim s = discrete_unstable (shifts_of E) lim s.
Proof. unfold sel_unstable_discrete, discrete_unstable. destruct (existsb (existsb not_finite) s); auto. destruct lim as [b|]; cbn [beyond]; auto.
  apply existsb_false. intros cr _. apply existsb_false. auto. Qed.
Lemma stable_margin margin n k E N s lim : is_mat n k E -> limit_of margin E = Ok lim -> length s = n -> Forall (fun row => length row = N) s ->
  (sel_unstable_discrete E lim s = false <-> within_margin margin n k E N s).
Proof. intros HE El Hs HF. destruct (limit_spec n k margin E lim HE El) as (Hn & Hk & m & Hm & ->). rewrite sel_discrete_eq.
  assert (HLs : length (shifts_of E) = n) by (unfold shifts_of; rewrite map_length; apply HE).
  rewrite (discrete_stable (shifts_of E) _ s N) by (auto; lia). rewrite HLs. unfold within_margin. split; intros H i j Hi Hj; destruct (H i j Hi Hj) as (q & Eq & Hq); exists q; (split; [exact Eq|]).
  - intros m' Hm' Hne. rewrite <- (spread_unique n k E m m') in * by auto. specialize (Hq (margin * m)%R). destruct (Req_EM_T (margin * m) 0) as [H0|H0]; [contradiction|].
    unfold vget in Hq. rewrite (shift_mean n k) in Hq by auto. auto.
  - intros b Hb. destruct (Req_EM_T (margin * m) 0) as [H0|H0]; [discriminate|]. injection Hb as <-. unfold vget. rewrite (shift_mean n k) by auto. auto. Qed.

(* the entries of the training part *)
Lemma nth_firstn_lt {A} k (l : list A) j d : j < k -> nth j (firstn k l) d = nth j l d.
Proof. revert l j. induction k as [|k IH]; intros [|x l] [|j] H; cbn; auto; try lia. apply IH. lia. Qed.
Lemma all_some_iff {A} (l : list (option A)) l' : all_some l = Some l' <-> l = map Some l'.
Proof. revert l'. induction l as [|x l IH]; intros l'; cbn [all_some].
  - split; [intros [= <-]; auto|]. destruct l'; [auto|discriminate].
  - destruct x as [a|]; [|split; [discriminate|destruct l'; discriminate]]. destruct (all_some l) as [t|] eqn:Et.
    + split; [intros [= <-]; cbn; f_equal; apply IH; auto|]. destruct l' as [|b l']; [discriminate|]. cbn. intros [= -> E]. apply IH in E. congruence.
    + split; [discriminate|]. destruct l' as [|b l']; [discriminate|]. cbn. intros [= -> E]. apply IH in E. discriminate. Qed.
Lemma real_of_iff x y : real_of x = Some y <-> x = F y.
Proof. destruct x; cbn; split; congruence. Qed.
Lemma reals_iff n k N s Y : length s = n -> Forall (fun row => length row = N) s -> k <= N ->
  (reals (map (firstn k) s) = Some Y <-> is_mat n k Y /\ forall i j, i < n -> j < k -> fentry s i j = F (mget Y i j)).
Proof. intros Hs HF Hk. unfold reals. rewrite all_some_iff. split.
  - intros E. assert (HL : length Y = n) by (apply (f_equal (@length _)) in E; rewrite !map_length in E; lia).
    assert (HR : forall i, i < n -> map real_of (firstn k (nth i s [])) = map Some (nth i Y [])).
    { intros i Hi. apply (f_equal (fun l => nth i l None)) in E. rewrite (nth_map_in _ _ i None []) in E by (rewrite map_length; lia). rewrite (nth_map_in _ s i [] []) in E by lia. rewrite (nth_map_in _ Y i None []) in E by lia.
      apply all_some_iff in E. exact E. }
    assert (HW : forall i, i < n -> length (nth i Y []) = k).
    { intros i Hi. specialize (HR i Hi). apply (f_equal (@length _)) in HR. rewrite !map_length in HR. rewrite <- HR. rewrite firstn_length. rewrite Forall_forall in HF. rewrite (HF (nth i s [])) by (apply nth_In; lia). lia. }
    split.
    + split; auto. apply Forall_forall. intros row Hrow. apply (In_nth _ _ []) in Hrow. destruct Hrow as (i & Hi & <-). apply HW. lia.
    + intros i j Hi Hj. specialize (HR i Hi). apply (f_equal (fun l => nth j l None)) in HR. rewrite (nth_map_in _ (nth i Y []) j None 0%R) in HR by (rewrite HW; auto).
      rewrite (nth_map_in _ (firstn k (nth i s [])) j None SpecLift.NaN) in HR. 2:{ rewrite firstn_length. rewrite Forall_forall in HF. rewrite (HF (nth i s [])) by (apply nth_In; lia). lia. }
      apply real_of_iff in HR. unfold fentry, mget. rewrite <- HR. symmetry. apply nth_firstn_lt. auto.
  - intros ([HL HW] & HE). apply (nth_ext _ _ None None); rewrite !map_length; [lia|]. intros i Hi. rewrite (nth_map_in _ _ i None []) by (rewrite map_length; lia). rewrite (nth_map_in _ s i [] []) by lia. rewrite (nth_map_in _ Y i None []) by lia.
    apply all_some_iff. rewrite Forall_forall in HF, HW. assert (W1 : length (nth i s []) = N) by (apply HF, nth_In; lia). assert (W2 : length (nth i Y []) = k) by (apply HW, nth_In; lia).
    apply (nth_ext _ _ None None); rewrite !map_length, firstn_length; [lia|]. intros j Hj. rewrite (nth_map_in _ (firstn k (nth i s [])) j None SpecLift.NaN) by (rewrite firstn_length; lia). rewrite (nth_map_in _ (nth i Y []) j None 0%R) by lia.
    apply real_of_iff. rewrite nth_firstn_lt by lia. apply HE; lia. Qed.

Lemma error_total n k N E s : 0 < n -> is_mat n k E -> length s = n -> Forall (fun row => length row = N) s -> k <= N -> exists x, error_discrete E s = Ok x.
Proof. intros Hn HE Hs HF Hk. unfold error_discrete. rewrite (ncols_is_mat n k E HE Hn). destruct (reals (map (firstn k) s)) as [Y|] eqn:EY; [|eauto].
  apply (reals_iff n k N) in EY; auto. destruct (frobenius_ok n k E Y Hn HE (proj1 EY)) as (e & d & rel & -> & _). cbn. eauto. Qed.
Lemma error_spec n k N E s x : 0 < n -> is_mat n k E -> length s = n -> Forall (fun row => length row = N) s -> k <= N ->
  (error_discrete E s = Ok (F x) <-> relative_error n k E s x).
Proof. intros Hn HE Hs HF Hk. unfold error_discrete, relative_error. rewrite (ncols_is_mat n k E HE Hn). destruct (reals (map (firstn k) s)) as [Y|] eqn:EY.
  - assert (HY := EY). apply (reals_iff n k N) in HY; auto. destruct HY as [HY1 HY2]. destruct (frobenius_ok n k E Y Hn HE HY1) as (e & d & rel & -> & He & Ee & Hd & Ed & HQ). cbn [bind snd].
    assert (Se : sqrt (gap2 n k E Y) = e) by (rewrite <- Ee; apply sqrt_square; auto). assert (Sd : sqrt (sumsq n k E) = d) by (rewrite <- Ed; apply sqrt_square; auto).
    destruct HQ as [[H0 ->]|[H0 ->]]; cbn [finite_or_nan].
    + split; [discriminate|]. intros (_ & _ & _ & Hz & _). exfalso. apply Hz. rewrite <- Ed, H0. ring.
    + split.
      * intros [= <-]. exists Y. split; auto. split; auto. split; [rewrite <- Ed; intros Hz; apply H0; apply Rmult_integral in Hz; tauto|]. rewrite Se, Sd. auto.
      * intros (Y' & HY1' & HY2' & _ & ->). assert (Y' = Y) as ->; [|rewrite Se, Sd; auto]. apply (mat_ext n k); auto. intros i j Hi Hj. specialize (HY2 i j Hi Hj). specialize (HY2' i j Hi Hj). congruence.
  - split; [discriminate|]. intros (Y & HY1 & HY2 & _). assert (EY2 : reals (map (firstn k) s) = Some Y) by (apply (reals_iff n k N); auto). congruence. Qed.

(* the L2 norm over time *)
Lemma two_order : pos_order (SpecPost.Fin 2).
Proof. cbn. lra. Qed.
Lemma Lp2_unique n k t f x y : is_Lpnorm (SpecPost.Fin 2) n k t f x -> is_Lpnorm (SpecPost.Fin 2) n k t f y -> x = y.
Proof. intros [A B] [C D]. apply (rpow_inj x y 2); auto; [lra|congruence]. Qed.
Lemma error_c_total n k N t E s : 0 < n -> 0 < k -> is_mat n k E -> length s = n -> Forall (fun row => length row = N) s -> k <= N -> k <= length t -> exists x, error_continuous t E s = Ok x.
Proof. intros Hn Hk0 HE Hs HF Hk Ht. unfold error_continuous. rewrite (ncols_is_mat n k E HE Hn). destruct (reals (map (firstn k) s)) as [Y|] eqn:EY; [|eauto].
  apply (reals_iff n k N) in EY; auto. unfold Lp_error. unfold check_p. destruct (Rle_dec 2 0) as [|_]; [lra|]. cbn [bind]. rewrite (shape_eq_ok n k) by (auto; apply EY). cbn [negb atleast_2d].
  rewrite (ncols_is_mat n k E HE Hn). rewrite firstn_length, Nat.min_l by lia. rewrite Nat.eqb_refl. cbn. eauto. Qed.
Lemma error_c_spec n k N t E s x : 0 < n -> 0 < k -> is_mat n k E -> length s = n -> Forall (fun row => length row = N) s -> k <= N -> k <= length t -> in_order (firstn k t) ->
  (error_continuous t E s = Ok (F x) <-> relative_error_in_time n k (firstn k t) E s x).
Proof. intros Hn Hk0 HE Hs HF Hk Ht HO. unfold error_continuous, relative_error_in_time. rewrite (ncols_is_mat n k E HE Hn). destruct (reals (map (firstn k) s)) as [Y|] eqn:EY.
  - assert (HY := EY). apply (reals_iff n k N) in HY; auto. destruct HY as [HY1 HY2].
    destruct (Lp_error_ok n k E Y (SpecPost.Fin 2) (Times (firstn k t)) (firstn k t) Hn Hk0 HE HY1 two_order) as (e & d & rel & -> & He & Hd & HQ).
    { right. split; auto. rewrite firstn_length. split; [lia|auto]. } cbn [bind snd]. destruct HQ as [[H0 ->]|[H0 ->]]; cbn [finite_or_nan].
    + split; [discriminate|]. intros (Y' & a & b & _ & _ & _ & Hb & Hz & _). exfalso. apply Hz. rewrite (Lp2_unique _ _ _ _ _ _ Hb Hd). auto.
    + split.
      * intros [= <-]. exists Y, e, d. auto 10.
      * intros (Y' & a & b & HY1' & HY2' & Ha & Hb & _ & ->). assert (Y' = Y) as ->. { apply (mat_ext n k); auto. intros i j Hi Hj. specialize (HY2 i j Hi Hj). specialize (HY2' i j Hi Hj). congruence. }
        rewrite (Lp2_unique _ _ _ _ _ _ Ha He), (Lp2_unique _ _ _ _ _ _ Hb Hd). auto.
  - split; [discriminate|]. intros (Y & a & b & HY1 & HY2 & _). assert (EY2 : reals (map (firstn k) s) = Some Y) by (apply (reals_iff n k N); auto). congruence. Qed.

(* stability in the continuous case *)
Lemma has_nan_iff s : existsb (existsb is_nan) s = true <-> has_nan s.
Proof. rewrite existsb_exists. split.
  - intros (row & Hrow & H). apply existsb_exists in H. destruct H as (x & Hx & Ex). apply (In_nth _ _ []) in Hrow. destruct Hrow as (i & Hi & <-). apply (In_nth _ _ SpecLift.NaN) in Hx. destruct Hx as (j & Hj & <-).
    exists i, j. split; auto. unfold fentry. destruct (nth j (nth i s []) SpecLift.NaN); try discriminate. auto.
  - intros (i & j & E & Hi & Hj). exists (nth i s []). split; [apply nth_In; auto|]. apply existsb_exists. exists (fentry s i j). split; [apply nth_In; auto|]. rewrite E. auto. Qed.
Lemma stable_margin_c margin n k E N s lim : is_mat n k E -> limit_of margin E = Ok lim -> length s = n -> (exists w, Forall (fun row => length row = w) s) ->
  (sel_unstable_continuous N E lim s = false <-> complete N s /\ not_seen_outside margin n k E N s).
Proof. intros HE El Hs (w & HF). destruct (limit_spec n k margin E lim HE El) as (Hn & Hk & m & Hm & Elim). unfold sel_unstable_continuous.
  assert (Ehd : length (hd [] s) = w). { destruct s as [|row s]; [cbn in Hs; lia|]. inversion HF; auto. } rewrite Ehd.
  destruct (Nat.eqb_spec w N) as [->|Hne]; cbn [negb].
  2:{ split; [discriminate|]. intros [HC _]. exfalso. apply Hne. destruct s as [|row s]; [cbn in Hs; lia|]. inversion HC; inversion HF; subst. congruence. }
  destruct (existsb (existsb is_nan) s) eqn:Enan. { split; auto. intros _. split; auto. left. apply has_nan_iff; auto. }
  assert (Hno : ~ has_nan s) by (rewrite <- has_nan_iff; congruence). unfold not_seen_outside. split.
  - intros H. split; auto. right. intros m' Hm' Hne. rewrite <- (spread_unique n k E m m') in * by auto. destruct (Req_EM_T (margin * m) 0) as [H0|H0]; [contradiction|]. subst lim.
    apply (stable_margin margin n k E N s _ HE El Hs HF). unfold sel_unstable_discrete. destruct (existsb (existsb not_finite) s) eqn:Enf; auto.
    exfalso. apply existsb_exists in Enf. destruct Enf as (row & Hrow & Hx). apply existsb_exists in Hx. destruct Hx as (x & Hx & Ex).
    assert (HLs : length (shifts_of E) = n) by (unfold shifts_of; rewrite map_length; apply HE).
    apply (In_nth _ _ []) in Hrow. destruct Hrow as (i & Hi & <-). rewrite existsb_false in H. specialize (H (nth i (shifts_of E) 0%R, nth i s [])). cbn [fst snd] in H.
    rewrite existsb_false in H. assert (Hin : In (nth i (shifts_of E) 0%R, nth i s []) (combine (shifts_of E) s)). { rewrite <- combine_nth by lia. apply nth_In. rewrite combine_length. lia. }
    specialize (H Hin x Hx). destruct x; try discriminate. rewrite existsb_false in Enan. specialize (Enan (nth i s []) (nth_In _ _ Hi)). rewrite existsb_false in Enan. specialize (Enan _ Hx). discriminate.
  - intros [_ [Hx|H]]; [contradiction|]. rewrite Elim. destruct (Req_EM_T (margin * m) 0) as [H0|H0].
    { apply existsb_false. intros cr _. apply existsb_false. auto. }
    specialize (H m Hm H0). rewrite <- (stable_margin margin n k E N s lim HE El Hs HF) in H. unfold sel_unstable_discrete in H. destruct (existsb (existsb not_finite) s); [discriminate|]. subst lim. destruct (Req_EM_T (margin * m) 0); [contradiction|auto]. Qed.

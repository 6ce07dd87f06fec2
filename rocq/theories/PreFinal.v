(* PreFinal.v -- pipelines (C05), variables (C06), shift() and scale() (C07), the inplace flag (C08). *)
From Coq Require Import ZArith.
From Verif Require Export PreStats PreHeapProofs.
#[local] Open Scope nat_scope.

(* ---- C05 --------------------------------------------------------------------------------------------------------- *)
Lemma runs_chain {T} (f : T -> arr -> res arr) l : forall a b, chain f l a = Ok b <-> runs f l a b.
Proof. induction l as [|t l IH]; intros a b.
  - cbn. split; [intros E; injection E as <-; constructor|intros E; inversion E; auto].
  - rewrite chain_cons. split.
    + intros E. bindH E. econstructor; [eassumption|]. apply IH. auto.
    + intros E. inversion E as [|? ? ? c ? E1 E2]; subst. rewrite E1. cbn [bind]. apply IH. auto. Qed.
Lemma runs_app {T} (f : T -> arr -> res arr) l l' a c : runs f (l ++ l') a c <-> exists b, runs f l a b /\ runs f l' b c.
Proof. revert a; induction l as [|t l IH]; intros a; cbn.
  - split; [intros E; exists a; split; auto; constructor|]. intros [b [E1 E2]]. inversion E1; subst. auto.
  - split.
    + intros E. inversion E as [|? ? ? b ? E1 E2]; subst. apply IH in E2. destruct E2 as [d [E2 E3]]. exists d. split; auto. econstructor; eauto.
    + intros [d [E1 E3]]. inversion E1 as [|? ? ? b ? E2 E4]; subst. econstructor; eauto. apply IH. eauto. Qed.
Lemma runs_chain_rev {T} (f : T -> arr -> res arr) l : forall a b, chain_rev f l a = Ok b <-> runs f (rev l) a b.
Proof. induction l as [|t l IH]; intros a b.
  - cbn. split; [intros E; injection E as <-; constructor|intros E; inversion E; auto].
  - rewrite chain_rev_cons. cbn [rev]. rewrite runs_app. split.
    + intros E. bindH E. exists a0. split; [apply IH; auto|]. econstructor; [eassumption|constructor].
    + intros [c [E1 E2]]. apply IH in E1. rewrite E1. cbn [bind]. inversion E2 as [|? ? ? d ? E3 E4]; subst. inversion E4; subst. auto. Qed.
Lemma C05_order l nm a b : l <> [] ->
  (transform (TPipe l nm) a = Ok b <-> runs transform l a b) /\
  (transform_ddts (TPipe l nm) a = Ok b <-> runs transform_ddts l a b) /\
  (forall locs, inverse_transform (TPipe l nm) locs a = Ok b <-> runs (fun t => inverse_transform t locs) (rev l) a b).
Proof. intros Hl. cbn [transform transform_ddts inverse_transform]. rewrite !pipe_chain by auto. split; [apply runs_chain|]. split; [apply runs_chain|].
  intros locs. rewrite pipe_rev_chain by auto. apply runs_chain_rev. Qed.
Lemma chain_fit_trains l : forall a l' b, chain_fit (fit_from None) l a = Ok (l', b) <-> trains l a l' b.
Proof. induction l as [|t l IH]; intros a l' b.
  - cbn. split; [intros E; injection E as <- <-; constructor|intros E; inversion E; subst; auto].
  - change (chain_fit (fit_from None) (t :: l) a) with (do tb <- fit_from None t a; let '(t', b) := tb in do rest <- chain_fit (fit_from None) l b; let '(ts, c) := rest in Ok (t' :: ts, c)).
    split.
    + intros E. bindH E. destruct a0 as [t' c]. bindH E. destruct a0 as [ts d]. injection E as <- <-. econstructor; [exact E0|]. apply IH; auto.
    + intros E. inversion E as [|? t' ? ts ? c ? E1 E2]; subst. unfold fit_transform in E1. rewrite E1. cbn [bind]. apply IH in E2. rewrite E2. reflexivity. Qed.
Lemma C05_training l nm a t' b : l <> [] -> (fit_transform (TPipe l nm) a = Ok (t', b) <-> exists l', t' = TPipe l' nm /\ trains l a l' b).
Proof. intros Hl. unfold fit_transform at 1. cbn [fit_from]. replace (pipe_fit (fit_from None) l a) with (chain_fit (fit_from None) l a) by (destruct l; [congruence|reflexivity]).
  split.
  - intros E. bindH E. destruct a0 as [l' c]. injection E as <- <-. exists l'. split; auto. apply chain_fit_trains; auto.
  - intros [l' [-> E]]. apply chain_fit_trains in E. rewrite E. reflexivity. Qed.
(* round trip of a pipeline from the round trips of its members, whatever they are *)
Lemma C05_roundtrip l nm n : l <> [] ->
  (forall t, In t l -> forall a, alen a = n -> exists b, transform t a = Ok b /\ alen b = n /\ inverse_transform t None b = Ok a) ->
  forall a, alen a = n -> exists b, transform (TPipe l nm) a = Ok b /\ alen b = n /\ inverse_transform (TPipe l nm) None b = Ok a.
Proof. intros Hl H a Ha. cbn [transform inverse_transform].
  assert (G : forall l, (forall t, In t l -> forall a, alen a = n -> exists b, transform t a = Ok b /\ alen b = n /\ inverse_transform t None b = Ok a) ->
     forall a, alen a = n -> exists b, chain transform l a = Ok b /\ alen b = n /\ chain_rev (fun t => inverse_transform t None) l b = Ok a). 
  { clear. induction l as [|t l IH]; intros H a Ha; [exists a; auto|]. destruct (H t (or_introl eq_refl) a Ha) as [b [E1 [E2 E3]]].
    destruct (IH (fun u Hu => H u (or_intror Hu)) b E2) as [c [F1 [F2 F3]]]. exists c. rewrite chain_cons, E1. cbn [bind]. split; auto. split; auto.
    rewrite chain_rev_cons, F3. exact E3. }
  destruct (G l H a Ha) as [b [E1 [E2 E3]]]. exists b. rewrite pipe_chain, pipe_rev_chain by auto. auto. Qed.

(* ---- C06 --------------------------------------------------------------------------------------------------------- *)
Lemma var_rows_nth ns a i : i < length ns -> nth i (split_rows ns a) (V []) = var_rows ns i a.
Proof. intros Hi. unfold split_rows. rewrite (nth_map_in _ (seq 0 (length ns)) i (V []) 0) by (rewrite seq_length; auto). rewrite seq_nth by auto. cbn [plus].
  rewrite !dimsum_nth by lia. unfold var_rows, rows, aslice, slice. destruct a; reflexivity. Qed.
Lemma C06_split ns l a : l <> [] -> Forall2 trained ns l -> alen a = lsumn ns ->
  exists qs, multi_split (variable_sizes l) a = Ok qs /\ length qs = length l /\ aconcat qs = Ok a /\
  forall i, i < length l -> nth i qs (V []) = var_rows ns i a /\ alen (nth i qs (V [])) = nth i ns 0.
Proof. intros Hl H Ha. assert (HL := F2_length _ _ _ H). exists (split_rows ns a). rewrite (multi_split_ok _ ns); [|apply variable_sizes_trained; auto|auto].
  split; auto. split; [rewrite split_rows_length; auto|]. split; [apply concat_split; auto; intros ->; destruct l; [congruence|discriminate]|].
  intros i Hi. split; [apply var_rows_nth; lia|]. assert (E := split_alens ns a Ha). rewrite <- E at 2. symmetry. change 0 with (alen (V [])). apply map_nth. Qed.
Lemma C06_get_var ns l a i : Forall2 trained ns l -> alen a = lsumn ns -> i < length l -> get_var l (VIdx (Z.of_nat i)) a = Ok (var_rows ns i a).
Proof. intros H Ha Hi. assert (HL := F2_length _ _ _ H). unfold get_var, multi_check. rewrite (variable_sizes_trained ns l H), Ha, Nat.eqb_refl. cbn [bind].
  assert (LD : length (dimsum ns) = S (length ns)).
  { unfold dimsum, cumsum. cbn. f_equal. clear. generalize 0. induction ns as [|n ns IH]; intros c; cbn; auto. }
  rewrite (norm_index_ok _ _ i) by (rewrite ?LD; auto; lia). cbn [bind]. rewrite (norm_index_ok _ _ (S i)) by (rewrite ?LD; auto; try lia; left; lia). cbn [bind].
  rewrite !dimsum_nth by lia. unfold var_rows, rows, aslice, slice. destruct a; reflexivity. Qed.
Lemma index_of_first s names i j : nth_error names i = Some (Some s) -> (forall k, k < i -> nth_error names k <> Some (Some s)) -> index_of s names j = Some (j + i).
Proof. revert i j; induction names as [|nm names IH]; intros i j H Hf; [destruct i; discriminate|]. destruct i as [|i]; cbn in H.
  - injection H as ->. cbn. rewrite String.eqb_refl. f_equal. lia.
  - cbn. assert (H0 := Hf 0 ltac:(lia)). cbn in H0. destruct nm as [x|].
    + destruct (String.eqb_spec x s) as [->|]; [congruence|]. rewrite (IH i (S j)); auto; [f_equal; lia|]. intros k Hk. apply (Hf (S k)). lia.
    + rewrite (IH i (S j)); auto; [f_equal; lia|]. intros k Hk. apply (Hf (S k)). lia. Qed.
Lemma C06_get_var_name ns l a i s : Forall2 trained ns l -> alen a = lsumn ns -> nth_error (map tf_name l) i = Some (Some s) ->
  (forall k, k < i -> nth_error (map tf_name l) k <> Some (Some s)) -> get_var l (VName s) a = Ok (var_rows ns i a).
Proof. intros H Ha Hi Hf. assert (HL : i < length l) by (rewrite <- (map_length tf_name); apply nth_error_Some; congruence).
  rewrite <- (C06_get_var ns l a i H Ha HL). unfold get_var. rewrite (index_of_first s _ i 0 Hi Hf). reflexivity. Qed.
Lemma zipM_nth {T X Y} (f : T -> X -> res Y) l qs ys dt dq dy : length l = length qs -> zipM f l qs = Ok ys ->
  length ys = length l /\ forall i, i < length l -> f (nth i l dt) (nth i qs dq) = Ok (nth i ys dy).
Proof. revert qs ys; induction l as [|t l IH]; intros [|q qs] ys HL E; try discriminate.
  - cbn in E. injection E as <-. split; auto. intros i Hi. cbn in Hi. lia.
  - change (zipM f (t :: l) (q :: qs)) with (do y <- f t q; do ys <- zipM f l qs; Ok (y :: ys)) in E. bindH E. bindH E. injection E as <-.
    destruct (IH qs a0 ltac:(cbn in HL; lia) E1) as [L F]. split; [cbn; lia|]. intros [|i] Hi; cbn; auto. apply F. cbn in Hi. lia. Qed.
(* a method acting member by member, whose members keep the number of rows *)
Lemma multi_vars (f : tf -> arr -> res arr) ns l a b : length ns = length l -> alen a = lsumn ns ->
  (forall i q r, i < length l -> alen q = nth i ns 0 -> f (nth i l (TNull None None)) q = Ok r -> alen r = nth i ns 0) ->
  (do ys <- zipM f l (split_rows ns a); aconcat ys) = Ok b ->
  alen b = lsumn ns /\ forall i, i < length l -> f (nth i l (TNull None None)) (var_rows ns i a) = Ok (var_rows ns i b).
Proof. intros HL Ha HK E. bindH E. rename a0 into ys. assert (EA := split_alens ns a Ha).
  destruct (zipM_nth f l (split_rows ns a) ys (TNull None None) (V []) (V [])) as [LY F]; auto; [rewrite split_rows_length; auto|].
  assert (HY : map alen ys = ns).
  { apply (nth_ext _ _ 0 0); [rewrite map_length; lia|]. intros i Hi. rewrite map_length in Hi. rewrite (nth_map_in alen ys i 0 (V [])) by auto.
    apply (HK i (nth i (split_rows ns a) (V []))); [lia| |apply F; lia]. rewrite <- EA at 2. symmetry. change 0 with (alen (V [])). apply map_nth. }
  destruct (split_concat _ _ E) as [S1 S2]. rewrite HY in *. split; auto. intros i Hi. rewrite <- !var_rows_nth by lia. rewrite S1. apply F; auto. Qed.
Lemma F2_nth (ns : list nat) l i : Forall2 trained ns l -> i < length l -> trained (nth i ns 0) (nth i l (TNull None None)).
Proof. intros H. revert i. induction H as [|n t ns l Ht H IH]; intros [|i] Hi; cbn in *; try lia; auto. apply IH. lia. Qed.
Lemma C06_variables ns l a b : Forall2 trained ns l -> alen a = lsumn ns ->
  (transform (TMulti l) a = Ok b -> alen b = lsumn ns /\ forall i, i < length l -> transform (nth i l (TNull None None)) (var_rows ns i a) = Ok (var_rows ns i b)) /\
  (transform_ddts (TMulti l) a = Ok b -> alen b = lsumn ns /\ forall i, i < length l -> transform_ddts (nth i l (TNull None None)) (var_rows ns i a) = Ok (var_rows ns i b)) /\
  (inverse_transform (TMulti l) None a = Ok b -> alen b = lsumn ns /\
     forall i, i < length l -> inverse_transform (nth i l (TNull None None)) None (var_rows ns i a) = Ok (var_rows ns i b)).
Proof. intros H Ha. assert (HL := F2_length _ _ _ H). assert (HV := variable_sizes_trained ns l H). assert (HS := multi_split_ok _ ns a HV Ha).
  cbn [transform transform_ddts inverse_transform]. unfold multi_apply, multi_split_locs. rewrite HV, HS. cbn [bind]. split; [|split]; apply multi_vars; auto.
  - intros i q r Hi Hq E. destruct (C01_all _ _ (F2_nth ns l i H Hi) q Hq) as [[b' [F1 [F2 _]]] _]. rewrite E in F1. injection F1 as <-. apply same_shape_alen in F2. lia.
  - intros i q r Hi Hq E. destruct (C04_all _ _ (F2_nth ns l i H Hi) q 0%R q Hq (same_shape_refl q)) as [b' [c' [_ [F1 [_ [_ F2]]]]]].
    rewrite E in F1. injection F1 as <-. apply same_shape_alen in F2. lia.
  - intros i q r Hi Hq E. destruct (C01_all _ _ (F2_nth ns l i H Hi) q Hq) as [_ [b' [F1 [F2 _]]]]. rewrite E in F1. injection F1 as <-. apply same_shape_alen in F2. lia. Qed.
Lemma C06_wrong_rows ns l a : Forall2 trained ns l -> alen a <> lsumn ns ->
  transform (TMulti l) a = Err DimensionalityError /\ transform_ddts (TMulti l) a = Err DimensionalityError /\
  inverse_transform (TMulti l) None a = Err DimensionalityError /\ multi_split (variable_sizes l) a = Err DimensionalityError /\
  (forall v, get_var l v a = Err DimensionalityError) /\ fit_transform (TMulti l) a = Err DimensionalityError.
Proof. intros H Ha. assert (HV := variable_sizes_trained ns l H). assert (HC : multi_check (variable_sizes l) a = Err DimensionalityError).
  { unfold multi_check. rewrite HV. destruct (Nat.eqb_spec (alen a) (lsumn ns)); [congruence|reflexivity]. }
  assert (HS : multi_split (variable_sizes l) a = Err DimensionalityError) by (unfold multi_split; rewrite HC; reflexivity).
  unfold fit_transform. cbn [transform transform_ddts inverse_transform fit_from]. unfold multi_apply, multi_split_locs. rewrite HV, HS. cbn [bind]. repeat split.
  - intros v. unfold get_var. rewrite HC. reflexivity.
  - rewrite HS. reflexivity. Qed.
Lemma C06_multi_trained n l : trained n (TMulti l) <-> l <> [] /\ exists ns, n = lsumn ns /\ Forall2 trained ns l.
Proof. exact (trained_multi n l). Qed.
Lemma C06_fit_even l a : l <> [] -> allsome (variable_sizes l) = None -> alen a mod length l <> 0 -> fit_transform (TMulti l) a = Err DimensionalityError.
Proof. intros Hl HV Ha. unfold fit_transform. cbn [fit_from]. rewrite HV. destruct (Nat.eqb_spec (alen a mod length l) 0); [congruence|reflexivity]. Qed.
Lemma C06_last_variable_refuted : exists l a, trained 2 (TMulti l) /\ length l = 2 /\ alen a = 2 /\ get_var l (VIdx (-1)) a = Ok (V []) /\
  get_var l (VIdx 1) a = Ok (V [8%R]).
Proof. exists [TNull (Some 1) None; TNull (Some 1) None], (V [7%R; 8%R]). split; [|repeat split; reflexivity].
  cbn. split; [discriminate|]. exists 1, 1. split; auto. split; auto. exists 1, 0. auto. Qed.

(* ---- C07 --------------------------------------------------------------------------------------------------------- *)
Definition minus_vec (v : vec) (Y : mat) : mat := copm ISub (Vc v) Y.
Lemma bcast_same (v : vec) n : length v = n -> bcast n v = Ok v. Proof. intros <-. unfold bcast. rewrite Nat.eqb_refl. reflexivity. Qed.
Lemma minus_get n k v Y i j : is_mat n k Y -> length v = n -> i < n -> j < k -> mget (minus_vec v Y) i j = (mget Y i j - vget v i)%R.
Proof. intros [H1 H2] Hv Hi Hj. unfold mget, minus_vec, copm. cbn. unfold vget. rewrite (map2_nth _ Y v i [] 0%R []) by lia.
  rewrite (nth_map_in _ (nth i Y []) j 0%R 0%R); [reflexivity|]. rewrite Forall_forall in H2. rewrite (H2 (nth i Y [])); auto. apply nth_In. lia. Qed.
Lemma minus_mat n k v Y : is_mat n k Y -> length v = n -> is_mat n k (minus_vec v Y).
Proof. intros H Hv. eapply is_mat_shape; [exact H|]. apply copm_shape. cbn. destruct H as [-> _]. auto. Qed.
Lemma shift_given n k Q v : is_mat n k Q -> length v = n -> shift_fn (M Q) (Some (V v)) = Ok (M (minus_vec v Q), None).
Proof. intros [H _] Hv. unfold shift_fn. cbn [bind]. rewrite bcast_same by lia. reflexivity. Qed.
Lemma minus_undo n k Q v : is_mat n k Q -> length v = n -> minus_vec (map Ropp v) (minus_vec v Q) = Q.
Proof. intros H Hv. assert (H1 := minus_mat n k v Q H Hv). assert (Hv' : length (map Ropp v) = n) by (rewrite map_length; auto).
  apply (mat_ext n k); auto using minus_mat. intros i j Hi Hj. rewrite (minus_get n k), (minus_get n k) by auto.
  replace (vget (map Ropp v) i) with (- vget v i)%R; [ring|]. unfold vget. rewrite (nth_map_in Ropp v i 0%R 0%R) by lia. reflexivity. Qed.
Lemma C07_shift_given n k Q v : is_mat n k Q -> length v = n -> exists B, shift_fn (M Q) (Some (V v)) = Ok (M B, None) /\ is_mat n k B /\
  (forall i j, i < n -> j < k -> mget B i j = (mget Q i j - vget v i)%R) /\ shift_fn (M B) (Some (V (map Ropp v))) = Ok (M Q, None).
Proof. intros H Hv. exists (minus_vec v Q). rewrite (shift_given n k) by auto. split; auto. split; [apply minus_mat; auto|].
  split; [intros; apply (minus_get n k); auto|]. rewrite (shift_given n k); [|apply minus_mat; auto|rewrite map_length; auto]. rewrite (minus_undo n k); auto. Qed.
Lemma means_total n k Q : is_mat n k Q -> 0 < k -> mapM mean_nz Q = Ok (map vmean Q).
Proof. intros [_ HY] Hk. revert HY. induction Q as [|r Y IH]; intros H; auto. apply Forall_cons_iff in H. destruct H as [Hr H].
  cbn. rewrite mean_nz_total by (destruct r; [cbn in Hr; lia|discriminate]). rewrite IH by auto. reflexivity. Qed.
Lemma C07_shift_mean n k Q : is_mat n k Q -> 0 < k -> exists B m, shift_fn (M Q) None = Ok (M B, Some m) /\ length m = n /\ is_mat n k B /\
  (forall i, i < n -> mean_is (vget m i) (nth i Q [])) /\
  (forall i j, i < n -> j < k -> mget B i j = (mget Q i j - vget m i)%R) /\ (forall row, In row B -> mean_is 0 row) /\
  shift_fn (M Q) (Some (V m)) = Ok (M B, None) /\ shift_fn (M B) (Some (V (map Ropp m))) = Ok (M Q, None).
Proof. intros H Hk. assert (HM := means_total n k Q H Hk). exists (minus_vec (map vmean Q) Q), (map vmean Q).
  assert (HL : length (map vmean Q) = n) by (rewrite map_length; apply H).
  destruct (C07_shift_given n k Q (map vmean Q) H HL) as [B [E1 [E2 [E3 E4]]]]. assert (E5 := shift_given n k Q _ H HL). rewrite E5 in E1. injection E1 as <-.
  split; [unfold shift_fn; rewrite HM; cbn [bind]; rewrite bcast_same by (rewrite map_length; auto); reflexivity|].
  split; auto. split; auto. split; [|split; [exact E3|split; [|auto]]].
  - intros i Hi. destruct (mean_nz_ok (nth i Q []) (vmean (nth i Q []))) as [_ E].
    { apply mean_nz_total. destruct H as [H1 H2]. rewrite Forall_forall in H2. assert (L := H2 (nth i Q []) ltac:(apply nth_In; lia)). destruct (nth i Q []); [cbn in L; lia|discriminate]. }
    unfold vget. rewrite (nth_map_in vmean Q i 0%R []) by (destruct H; lia). exact E.
  - apply centered_rows. exact HM. Qed.
Lemma C07_shift_column n k Q v : is_mat n k Q -> length v = n -> 0 < n -> shift_fn (M Q) (Some (M (map (fun x => [x]) v))) = shift_fn (M Q) (Some (V v)).
Proof. intros H Hv Hn. unfold shift_fn. cbn [bind]. replace (ncols (map (fun x => [x]) v)) with 1; [|destruct v; [cbn in Hv; lia|reflexivity]].
  cbn [Nat.eqb bind]. rewrite map_map. rewrite (map_ext _ (fun x : R => x)), map_id by reflexivity. reflexivity. Qed.
Lemma C07_shift_vector v s : shift_fn (V v) s = Err ValueError. Proof. reflexivity. Qed.

Definition aff_all (a b : R) (x : arr) : arr := allop Rplus b (allop Rmult a x).
Lemma aff_all_map a b x : aff_all a b x = match x with V v => V (map (fun y => y * a + b)%R v) | M m => M (map (map (fun y => y * a + b)%R) m) end.
Proof. destruct x as [v|m]; unfold aff_all, allop; [rewrite map_map; reflexivity|]. f_equal. rewrite map_map. apply map_ext. intros r. apply map_map. Qed.
Lemma aff_all_flat a b x : aflat (aff_all a b x) = map (fun y => y * a + b)%R (aflat x).
Proof. rewrite aff_all_map. destruct x; cbn; auto. symmetry. apply map_concat. Qed.
Lemma aff_all_undo a b c d x : (forall y, (y * a + b) * c + d = y)%R -> aff_all c d (aff_all a b x) = x.
Proof. intros H. rewrite !aff_all_map. destruct x as [v|m]; f_equal.
  - rewrite map_map. rewrite <- (map_id v) at 2. apply map_ext. auto.
  - rewrite map_map. rewrite <- (map_id m) at 2. apply map_ext. intros r. rewrite map_map. rewrite <- (map_id r) at 2. apply map_ext. auto. Qed.
Lemma scale_given x a b c d : c <> d -> scale_fn x [a; b]%R (Some [c; d]%R) = Ok (aff_all ((b - a) / (d - c)) (a - c * ((b - a) / (d - c))) x, None).
Proof. intros H. unfold scale_fn. cbn [bind]. assert (E : isnz (d - c) = true) by (apply isnz_true; lra). rewrite E. reflexivity. Qed.
Lemma C07_scale_given x a b c d : c <> d -> exists y, scale_fn x [a; b]%R (Some [c; d]%R) = Ok (y, None) /\ same_shape x y /\
  aflat y = map (fun q => a + (q - c) * (b - a) / (d - c))%R (aflat x) /\ (a <> b -> scale_fn y [c; d]%R (Some [a; b]%R) = Ok (x, None)).
Proof. intros H. eexists. rewrite scale_given by auto. split; [reflexivity|]. split; [|split].
  - rewrite aff_all_map. destruct x; cbn; [rewrite map_length; auto|]. rewrite map_map. apply map_ext. intros r. rewrite map_length. auto.
  - rewrite aff_all_flat. apply map_ext. intros q. field. lra.
  - intros Hab. rewrite scale_given by auto. rewrite aff_all_undo; auto. intros y. field. split; lra. Qed.
Lemma C07_scale_learn x a b : varies (aflat x) -> (a < b)%R -> exists y lo hi, scale_fn x [a; b]%R None = Ok (y, Some [lo; hi]) /\ same_shape x y /\
  is_min lo (aflat x) /\ is_max hi (aflat x) /\ is_min a (aflat y) /\ is_max b (aflat y) /\
  scale_fn y [lo; hi] (Some [a; b]) = Ok (x, None).
Proof. intros Hv Hab. assert (Hne := varies_nonempty _ Hv). destruct (vmin_total _ Hne) as [lo E1]. destruct (vmax_total _ Hne) as [hi E2].
  assert (M1 := vmin_ok _ _ E1). assert (M2 := vmax_ok _ _ E2).
  assert (Hlt : (lo < hi)%R).
  { destruct Hv as [p [q [Hp [Hq Hpq]]]]. destruct M1 as [_ M1], M2 as [_ M2]. assert (A1 := M1 p Hp). assert (A2 := M1 q Hq). assert (A3 := M2 p Hp). assert (A4 := M2 q Hq).
    destruct (Rtotal_order p q) as [|[|]]; lra. }
  assert (Hd : lo <> hi) by lra. destruct (C07_scale_given x a b lo hi Hd) as [y [E3 [E4 [E5 E6]]]].
  exists y, lo, hi. split; [|split; [exact E4|split; [exact M1|split; [exact M2|]]]].
  - unfold scale_fn. rewrite E1, E2. cbn [bind]. assert (E : isnz (hi - lo) = true) by (apply isnz_true; lra). rewrite E. cbn [negb bind].
    rewrite (scale_given x a b lo hi Hd) in E3. unfold aff_all in E3. congruence.
  - assert (P : (0 < (b - a) / (hi - lo))%R) by (apply Rdiv_lt_0_compat; lra).
    assert (EY : aflat y = map (fun q => q * ((b - a) / (hi - lo)) + (a - lo * ((b - a) / (hi - lo))))%R (aflat x)).
    { rewrite E5. apply map_ext. intros q. field. lra. }
    split; [|split].
    + assert (X := min_aff _ lo _ (a - lo * ((b - a) / (hi - lo))) P M1). rewrite EY. replace a with (lo * ((b - a) / (hi - lo)) + (a - lo * ((b - a) / (hi - lo))))%R at 1 by ring. exact X.
    + assert (X := max_aff _ hi _ (a - lo * ((b - a) / (hi - lo))) P M2). rewrite EY. replace b with (hi * ((b - a) / (hi - lo)) + (a - lo * ((b - a) / (hi - lo))))%R at 1 by (field; lra). exact X.
    + apply E6. lra. Qed.

(* ---- the constructors ----------------------------------------------------------------------------------------------- *)
Lemma mapM_In {A B} (f : A -> res B) l l' y : mapM f l = Ok l' -> In y l' -> exists x, In x l /\ f x = Ok y.
Proof. revert l'; induction l as [|x l IH]; intros l' E Hy; cbn in E; [injection E as <-; destruct Hy|].
  destruct (f x) eqn:E0; [|discriminate]. destruct (mapM f l) eqn:E1; [|discriminate]. injection E as <-.
  destruct Hy as [<-|Hy]; [exists x; cbn; auto|]. destruct (IH _ eq_refl Hy) as [z [Hz Ez]]. exists z. cbn. auto. Qed.
Lemma built_set_name nm t : built t -> built (tf_set_name nm t). Proof. destruct t; cbn; auto. Qed.
Lemma C01_constructors t :
  (exists ref nm, mk_shift ref nm = Ok t) \/ (exists c nm, mk_scale c nm = Ok t) \/ (exists ce sc by_ nm, mk_ss ce sc by_ nm = Ok t) \/
  (exists nm, mk_null nm = t) \/ (exists l nm, mk_pipe (PList l) nm = Ok t /\ l <> [] /\ Forall built l) \/
  (exists l, mk_multi l None = Ok t /\ Forall (fun o => match o with Some u => built u | None => True end) l) -> built t.
Proof. intros [[ref [nm E]]|[[c [nm E]]|[[ce [sc [by_ [nm E]]]]|[[nm E]|[[l [nm [E [Hl H]]]]|[l [E H]]]]]]].
  - destruct ref; [injection E as <-|discriminate]. exact I.
  - unfold mk_scale in E. destruct (coef_nz c) eqn:Ec; [|discriminate]. injection E as <-. cbn. split; auto. destruct c; auto.
  - unfold mk_ss in E. bindH E. injection E as <-. unfold ss_init in E0. cbn [built]. destruct by_, sc as [[]|]; cbn in E0; try discriminate; injection E0 as <-; cbn; intros; split; congruence.
  - subst. exact I.
  - unfold mk_pipe in E. destruct (consistent_dims _); [|discriminate]. injection E as <-. apply built_pipe. auto.
  - unfold mk_multi in E. destruct l as [|o l]; [discriminate|]. bindH E. rename a into ts. injection E as <-. apply built_multi. split.
    + apply mapM_length in E0. destruct ts; [discriminate|congruence].
    + apply Forall_forall. intros u Hu. destruct (mapM_In _ _ _ _ E0 Hu) as [[i v] [Hv Ev]]. apply in_combine_r in Hv. apply in_map_iff in Hv. destruct Hv as [w [Ew Hw]].
      rewrite Forall_forall in H. specialize (H w Hw). assert (Bv : built v) by (subst v; destruct w; [exact H|exact I]).
      cbn [snd fst] in Ev. assert (EU : u = match tf_name v with Some _ => v | None => tf_set_name (Some (variable_name i)) v end) by (destruct v; congruence).
      rewrite EU. destruct (tf_name v); [exact Bv|apply built_set_name; exact Bv]. Qed.
Lemma C_fit_transform t a t' b : built t -> fit_transform t a = Ok (t', b) -> trained (alen a) t' /\ built t' /\ transform t' a = Ok b.
Proof. intros H E. exact (C_fit t H None a t' b E). Qed.

(* ---- C08 --------------------------------------------------------------------------------------------------------- *)
Lemma refines_respects {B} (op : bool -> harr -> H (B * harr)) f : refines op f -> respects_inplace op f.
Proof. intros HR inplace h x h' r Hx E. destruct (HR inplace h x h' r Hx E) as [H1 [H2 H3]]. split.
  - intros z Hz Hd. split; [|apply wf_mono with h; auto]. apply rd_ext. intros a Ha. apply H2.
    + destruct Hz as [_ Hz]. rewrite Forall_forall in Hz. auto.
    + intros Hi. apply Hd; auto.
  - destruct r as [[b y]|e], (f (rd h x)) as [[b' v]|e'] eqn:Ef; try contradiction; [|congruence].
    destruct H3 as [<- [<- [H4 H5]]]. split; auto. split; auto. destruct inplace; auto. intros z [_ Hz] a Ha Hy. rewrite Forall_forall in *.
    assert (A1 := Hz a Ha). assert (A2 := H5 a Hy). lia. Qed.
Lemma C08_all t : respects_inplace (htransform t) (no_output (transform t)) /\ respects_inplace (htransform_ddts t) (no_output (transform_ddts t)) /\
  (forall locs, respects_inplace (hinverse locs t) (no_output (inverse_transform t locs))) /\ respects_inplace (hfit_transform t) (fit_transform t).
Proof. split; [|split; [|split]]; [| |intros locs|]; apply refines_respects; [apply C08_transform|apply C08_ddts|apply C08_inverse|exact (C08_fit t None)]. Qed.
Lemma call_step c inplace x h z : wf h x -> wf h z -> (inplace = true -> disjoint z x) -> rd (run_call c inplace x h) z = rd h z /\ wf (run_call c inplace x h) z.
Proof. intros Hx Hz Hd. destruct c as [t|t|t locs|t]; cbn [run_call]; destruct (C08_all t) as [A [B [C D]]].
  - destruct (htransform t inplace x h) as [h' r] eqn:E. exact (proj1 (A inplace h x h' r Hx E) z Hz Hd).
  - destruct (htransform_ddts t inplace x h) as [h' r] eqn:E. exact (proj1 (B inplace h x h' r Hx E) z Hz Hd).
  - destruct (hinverse locs t inplace x h) as [h' r] eqn:E. exact (proj1 (C locs inplace h x h' r Hx E) z Hz Hd).
  - destruct (hfit_transform t inplace x h) as [h' r] eqn:E. exact (proj1 (D inplace h x h' r Hx E) z Hz Hd). Qed.
Lemma C08_history z h h' : wf h z -> history z h h' -> rd h' z = rd h z.
Proof. intros Hz H. induction H as [h|c inplace x h h' Hx Hd H IH]; auto. destruct (call_step c inplace x h z Hx Hz Hd) as [E W]. rewrite IH by auto. exact E. Qed.
(* transform(inplace=True) and then inverse_transform(inplace=True) leave the argument as it was *)
Lemma C08_roundtrip t n h x h1 h2 r1 r2 : trained n t -> wf h x -> alen (rd h x) = n ->
  htransform t true x h = (h1, r1) -> hinverse None t true x h1 = (h2, r2) -> r1 = Ok (tt, x) /\ r2 = Ok (tt, x) /\ rd h2 x = rd h x.
Proof. intros Ht Hx Ha E1 E2. destruct (C08_all t) as [A [_ [C _]]]. destruct (A true h x h1 r1 Hx E1) as [_ A2].
  destruct (C01_all _ _ Ht (rd h x) Ha) as [[b [F1 [F2 F3]]] _]. unfold no_output in A2. rewrite F1 in A2. cbn [bind] in A2.
  destruct r1 as [[[] y]|e]; [|discriminate]. destruct A2 as [A2 [A3 ->]]. injection A2 as A2. 
  destruct (C None true h1 x h2 r2 A3 E2) as [_ B2]. unfold no_output in B2. rewrite <- A2, F3 in B2. cbn [bind] in B2.
  destruct r2 as [[[] y]|e]; [|discriminate]. destruct B2 as [B2 [B3 ->]]. injection B2 as B2. auto. Qed.
(* the reference of a ShiftTransformer *)
Lemma C01_reference_view_refuted : exists ref x h h1 h2 y z, wf h x /\ wf h (HV ref) /\ length ref = alen (rd h x) /\
  shift_inplace ref x h = (h1, Ok y) /\ unshift_inplace ref y h1 = (h2, Ok z) /\ z = x /\ rd h2 x <> rd h x.
Proof. exists [0], (HM [[0; 1]]), {| hcell := fun a => INR (S a); hnext := 2 |}. do 4 eexists.
  assert (E : forall P Q R S T U W : Prop, P -> Q -> R -> S -> T -> U -> W -> P /\ Q /\ R /\ S /\ T /\ U /\ W) by tauto. apply E; clear E.
  - split; cbn; [repeat constructor; cbn; intuition lia|repeat constructor].
  - split; cbn; [repeat constructor; cbn; intuition lia|repeat constructor].
  - reflexivity.
  - reflexivity.
  - reflexivity.
  - reflexivity.
  - cbn. intros E. injection E as E1 E2. cbn in *. lra. Qed.
Lemma shift_exec ref a o : length ref = alen a -> o = ISub \/ o = IAdd -> exists b, exec1 (Stmt o (Vc ref)) a = Ok b /\ b = cop o (Vc ref) a.
Proof. intros H Ho. rewrite exec1_ok; [eauto|exact H|]. intros ->. destruct Ho; discriminate. Qed.
Lemma C01_reference_apart ref x h h1 y h2 z : wf h x -> disjoint (HV ref) x -> 
  shift_inplace ref x h = (h1, Ok y) -> unshift_inplace ref y h1 = (h2, Ok z) -> y = x /\ z = x /\ rd h2 x = rd h x /\ rd h1 (HV ref) = rd h (HV ref).
Proof. intros Hx Hd E1 E2. assert (HX := Hx). destruct HX as [ND _].
  unfold shift_inplace, hread, hbind, hlift, hret, hstmt, check_shape in E1. destruct (Nat.eqb_spec (alen (rd h x)) (length ref)) as [HL|]; [|discriminate].
  set (rv := aflat (rd h (HV ref))) in *. assert (HR : length rv = alen (rd h x)) by (unfold rv; cbn; rewrite map_length; auto).
  rewrite exec1_ok in E1; [|exact HR|discriminate]. apply pair_equal_spec in E1. destruct E1 as [<- E1]. assert (Ey : y = x) by congruence. subst y. clear E1.
  assert (HS : same_shape (rd h x) (cop ISub (Vc rv) (rd h x))) by (apply cop_shape; exact HR).
  assert (R1 : rd (hwrite h x (cop ISub (Vc rv) (rd h x))) x = cop ISub (Vc rv) (rd h x)) by (apply rd_write; auto).
  assert (R2 : rd (hwrite h x (cop ISub (Vc rv) (rd h x))) (HV ref) = rd h (HV ref)).
  { apply rd_ext. intros a Ha. cbn. apply hput_out. apply Hd. exact Ha. }
  unfold unshift_inplace, hread, hbind, hlift, hret, hstmt, check_shape in E2. rewrite R1, R2 in E2. fold rv in E2. rewrite <- (same_shape_alen _ _ HS), HL, Nat.eqb_refl in E2.
  assert (HR2 : okc (alen (cop ISub (Vc rv) (rd h x))) (Vc rv)) by (rewrite <- (same_shape_alen _ _ HS); exact HR).
  rewrite exec1_ok in E2; [|exact HR2|discriminate]. apply pair_equal_spec in E2. destruct E2 as [<- E2]. assert (Ez : z = x) by congruence. subst z. split; auto. split; auto. split; auto.
  rewrite rd_write; auto.
  - apply (cop_undo ISub (Vc rv)); [exact HR|]. intros [|]; discriminate.
  - rewrite R1. apply cop_shape. exact HR2. Qed.
Lemma C06_by_variable ns l a b : Forall2 trained ns l -> alen a = lsumn ns -> forall i, i < length l -> let ti := nth i l (TNull None None) in
  (transform (TMulti l) a = Ok b -> exists q r, get_var l (VIdx (Z.of_nat i)) a = Ok q /\ get_var l (VIdx (Z.of_nat i)) b = Ok r /\ transform ti q = Ok r) /\
  (transform_ddts (TMulti l) a = Ok b -> exists q r, get_var l (VIdx (Z.of_nat i)) a = Ok q /\ get_var l (VIdx (Z.of_nat i)) b = Ok r /\ transform_ddts ti q = Ok r) /\
  (inverse_transform (TMulti l) None a = Ok b -> exists q r, get_var l (VIdx (Z.of_nat i)) a = Ok q /\ get_var l (VIdx (Z.of_nat i)) b = Ok r /\ inverse_transform ti None q = Ok r).
Proof. intros H Ha i Hi ti. destruct (C06_variables ns l a b H Ha) as [A [B C]].
  split; [|split]; intros E; [destruct (A E) as [L F]|destruct (B E) as [L F]|destruct (C E) as [L F]];
  exists (var_rows ns i a), (var_rows ns i b); rewrite (C06_get_var ns l a i H Ha Hi), (C06_get_var ns l b i H L Hi); (split; [reflexivity|split; [reflexivity|exact (F i Hi)]]). Qed.
(* cases for the examples *)
Lemma case_trained : trained 2 (TPipe [TShift [1; 2]%R None; TScale (Sc 2) (Some 2) None] None).
Proof. cbn. split; [discriminate|]. repeat split; auto; try lra. Qed.
Lemma case_multi : trained 3 (TMulti [TShift [1; 2]%R None; TScale (Vc [3]%R) (Some 1) None]).
Proof. cbn. split; [discriminate|]. exists 2, 1. repeat split; auto. exists 1, 0. repeat split; auto; try (repeat constructor; lra). Qed.
Lemma case_flat : flat (TPipe [TShift [1; 2]%R None; TScale (Sc 2) (Some 2) None] None) /\ selects 2 (LIdx [-1; 0; 1]%Z) [1; 0; 1].
Proof. split; [cbn; auto|]. cbn. repeat constructor; lia. Qed.
Lemma case_scalable sc : is_mat 1 2 [[1; 3]]%R /\ scalable sc false [[1; 3]]%R /\ scalable sc true [[1; 3]]%R.
Proof. assert (V : varies [1; 3]%R) by (exists 1%R, 3%R; cbn; repeat split; auto; lra). assert (N : exists x, In x [1; 3]%R /\ x <> 0%R) by (exists 1%R; cbn; split; auto; lra).
  split; [repeat constructor|]. destruct sc; cbn; split; intros v [<-|[]]; auto. Qed.
Lemma case_varies : varies (aflat (M [[1; 3]; [2; 2]]%R)). Proof. exists 1%R, 3%R. cbn. repeat split; auto. lra. Qed.
Lemma case_history : exists z h h', wf h z /\ history z h h' /\ h' <> h.
Proof. exists (HV [0]), {| hcell := fun a => INR a; hnext := 2 |}. eexists. split; [|split].
  - split; cbn; repeat constructor; auto.
  - apply (hist_cons _ (CTransform (TShift [1%R] None)) true (HV [1])); [split; cbn; repeat constructor; auto| |apply hist_nil].
    intros _ a [<-|[]] [E|[]]. discriminate.
  - cbn. intros E. apply (f_equal (fun h => hcell h 1)) in E. cbn in E. lra. Qed.
Lemma case_apart : exists ref x h, wf h x /\ disjoint (HV ref) x /\ length ref = alen (rd h x).
Proof. exists [0], (HM [[1; 2]]), {| hcell := fun a => INR a; hnext := 3 |}. split; [split; cbn; repeat constructor; cbn; intuition lia|]. split; [|reflexivity].
  intros a [<-|[]] [E|[E|[]]]; discriminate. Qed.
Lemma case_fit : exists t' b, fit_transform (TSS {| ss_cent := true; ss_scaling := Some Standard; ss_byrow := true; ss_name := None;
  ss_n := None; ss_mean := None; ss_scale := None; ss_shift := None |}) (M [[0; 1]; [2; 5]]%R) = Ok (t', b).
Proof. apply (C03_total _ 2 2); [repeat constructor|lia|cbn; intros; split; congruence|]. cbn [ss_scaling ss_byrow ss_cent]. intros sc E. injection E as <-. cbn.
  intros v [<-|[<-|[]]]; unfold varies, vmean, lsum; cbn; eexists; eexists; (split; [left; reflexivity|]); (split; [right; left; reflexivity|]); lra. Qed.
Lemma C02_byrow_refuted : exists (t : tf) (b : arr), trained 1 t /\ alen b = 1 /\ (exists a, inverse_transform t None b = Ok a) /\
  inverse_transform t (Some (LIdx [0%Z])) (asel [0] b) = Err TypeError.
Proof. exists (TSS {| ss_cent := true; ss_scaling := None; ss_byrow := true; ss_name := None; ss_n := Some 1; ss_mean := Some [2%R]; ss_scale := None; ss_shift := None |}), (V [1%R]).
  split; [|split; [reflexivity|split; [|reflexivity]]].
  - cbn. split; [reflexivity|]. cbn. split; [eauto|congruence].
  - cbn. eauto. Qed.
Lemma C05_tuple l nm : mk_pipe (PTuple l) nm = Err TypeError. Proof. reflexivity. Qed.
Lemma case_runs : runs transform [TShift [1%R] None; TScale (Sc 2) (Some 1) None] (V [3%R]) (V [((3 - 1) * 2)%R]).
Proof. econstructor; [reflexivity|]. econstructor; [reflexivity|]. constructor. Qed.
Lemma C06_get_vars ns l a : Forall2 trained ns l -> alen a = lsumn ns ->
  (forall i, i < length l -> get_var l (VIdx (Z.of_nat i)) a = Ok (var_rows ns i a)) /\
  (forall i s, nth_error (map tf_name l) i = Some (Some s) -> (forall k, k < i -> nth_error (map tf_name l) k <> Some (Some s)) ->
     get_var l (VName s) a = Ok (var_rows ns i a)).
Proof. intros H Ha. split; [intros i Hi; apply C06_get_var; auto|intros i s Hi Hf; apply C06_get_var_name; auto]. Qed.
Lemma C06_wrong l a :
  (forall ns, Forall2 trained ns l -> alen a <> lsumn ns ->
     transform (TMulti l) a = Err DimensionalityError /\ transform_ddts (TMulti l) a = Err DimensionalityError /\
     inverse_transform (TMulti l) None a = Err DimensionalityError /\ multi_split (variable_sizes l) a = Err DimensionalityError /\
     (forall v, get_var l v a = Err DimensionalityError) /\ fit_transform (TMulti l) a = Err DimensionalityError) /\
  (l <> [] -> allsome (variable_sizes l) = None -> alen a mod length l <> 0 -> fit_transform (TMulti l) a = Err DimensionalityError).
Proof. split; [intros ns; apply C06_wrong_rows|apply C06_fit_even]. Qed.
Lemma case_multi_sizes : Forall2 trained [2; 1] [TShift [1; 2]%R None; TScale (Vc [3]%R) (Some 1) None].
Proof. constructor; [reflexivity|]. constructor; [|constructor]. cbn. repeat split; auto; try (repeat constructor; lra). Qed.
Lemma C07_shift_vec n k Q v : is_mat n k Q -> length v = n ->
  (exists B, shift_fn (M Q) (Some (V v)) = Ok (M B, None) /\ is_mat n k B /\
     (forall i j, i < n -> j < k -> mget B i j = (mget Q i j - vget v i)%R) /\ shift_fn (M B) (Some (V (map Ropp v))) = Ok (M Q, None)) /\
  (0 < n -> shift_fn (M Q) (Some (M (map (fun x => [x]) v))) = shift_fn (M Q) (Some (V v))).
Proof. intros H Hv. split; [apply C07_shift_given; auto|]. intros Hn. apply (C07_shift_column n k); auto. Qed.

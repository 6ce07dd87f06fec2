(* PGenFlat.v -- all trajectories of a parametric model side by side: the regression of a parametric model as one of a
   nonparametric model whose inputs say which training parameter a snapshot belongs to. *)
From Coq Require Import ZArith String.
From Verif Require Import LinAlg MatAlg BlockAlg TupleFinal OpsProofs AffProofs PolyOpProofs MonoPredict ParaVals LiftProofs.
From Verif Require Export GenMain SpecPGen.
#[local] Open Scope nat_scope.
#[local] Open Scope list_scope.

(* ---- trajectories ----------------------------------------------------------------------------------------------------------- *)
Lemma traj_blocks n ks As : trajectories n ks As -> blocks n ks As.
Proof. induction 1 as [|k A ks As [_ H] HF IH]; constructor; auto. Qed.
Lemma traj_len n ks As : trajectories n ks As -> length As = length ks.
Proof. induction 1; cbn; auto. Qed.
Lemma traj_ne n ks As : trajectories n ks As -> ks <> [] -> As <> [].
Proof. destruct 1; congruence. Qed.
Lemma traj_nth n ks As i : trajectories n ks As -> i < length ks -> 0 < nth i ks 0 /\ is_mat n (nth i ks 0) (traj As i).
Proof. intros H. revert i. induction H as [|k A ks As [H0 H] HF IH]; intros [|i] Hi; cbn [length nth traj] in *; try lia; auto. apply IH. lia. Qed.
Lemma locate ks : forall c, c < lsumn ks -> exists i j, i < length ks /\ j < nth i ks 0 /\ c = start ks i + j.
Proof. induction ks as [|k ks IH]; intros c Hc; [cbn in Hc; lia|]. change (lsumn (k :: ks)) with (k + lsumn ks) in Hc. destruct (Nat.lt_ge_cases c k).
  - exists 0, c. cbn. repeat split; lia.
  - destruct (IH (c - k) ltac:(lia)) as (i & j & Hi & Hj & E). exists (S i), j. split; [cbn; lia|]. split; [exact Hj|].
    unfold start in *. change (firstn (S i) (k :: ks)) with (k :: firstn i ks). change (lsumn (k :: firstn i ks)) with (k + lsumn (firstn i ks)). lia. Qed.
Lemma start_lt ks i j : i < length ks -> j < nth i ks 0 -> start ks i + j < lsumn ks.
Proof. apply offset_lt. Qed.
Lemma bsum_traj ks : forall f, bsum (lsumn ks) f = bsum (length ks) (fun i => bsum (nth i ks 0) (fun j => f (start ks i + j))).
Proof. induction ks as [|k ks IH]; intros f; [reflexivity|]. change (lsumn (k :: ks)) with (k + lsumn ks). rewrite bsum_split, IH.
  change (length (k :: ks)) with (1 + length ks). rewrite bsum_split. cbn [bsum]. rewrite Rplus_0_l. f_equal.
  apply bsum_ext. intros i _. cbn [nth Nat.add]. apply bsum_ext. intros j _. f_equal. unfold start. change (firstn (S i) (k :: ks)) with (k :: firstn i ks).
  change (lsumn (k :: firstn i ks)) with (k + lsumn (firstn i ks)). lia. Qed.
Lemma mget_traj n ks As i j a : 0 < n -> trajectories n ks As -> i < length ks -> j < nth i ks 0 -> a < n -> mget (hstack As) a (start ks i + j) = mget (traj As i) a j.
Proof. intros Hn H Hi Hj Ha. destruct (nth_error_lt As i) as (A & EA). { rewrite (traj_len n ks As H). auto. } destruct (nth_error_lt ks i Hi) as (k & Ek).
  unfold traj. rewrite (nth_of_error As i A [] EA). apply (hstack_get n ks As Hn (traj_blocks n ks As H) i A k); auto. rewrite (nth_of_error ks i k 0 Ek) in Hj. auto. Qed.
Lemma colv_traj n ks As i j : 0 < n -> trajectories n ks As -> i < length ks -> j < nth i ks 0 -> colv n (hstack As) (start ks i + j) = colv n (traj As i) j.
Proof. intros Hn H Hi Hj. unfold colv. apply map_ext_in. intros a Ha. apply in_seq in Ha. apply (mget_traj n ks); auto. lia. Qed.
Lemma lsumn_ks_pos n ks As : trajectories n ks As -> ks <> [] -> 0 < lsumn ks.
Proof. destruct 1 as [|k A ks As [Hk _]]; [congruence|]. intros _. change (lsumn (k :: ks)) with (k + lsumn ks). lia. Qed.

(* the number of the trajectory as the first input *)
Fixpoint tagged (a : nat) (ks : list nat) (Us : list mat) : list mat :=
  match ks, Us with
  | k :: ks', U :: Us' => (repeat (INR a) k :: U) :: tagged (S a) ks' Us'
  | _, _ => []
  end.
Lemma tagged_traj m ks Us : trajectories m ks Us -> forall a, trajectories (S m) ks (tagged a ks Us).
Proof. induction 1 as [|k U ks Us [Hk [H1 H2]] HF IH]; intros a; cbn [tagged]; constructor; [|apply IH]. split; auto. split; [cbn; lia|].
  constructor; auto. apply repeat_length. Qed.
Lemma tagged_col m ks Us : trajectories m ks Us -> forall a i j, i < length ks -> j < nth i ks 0 ->
  colv (S m) (traj (tagged a ks Us) i) j = INR (a + i) :: colv m (traj Us i) j.
Proof. induction 1 as [|k U ks Us [Hk H] HF IH]; intros a [|i] j Hi Hj; cbn [length nth tagged traj] in *; try lia.
  - unfold colv. cbn [seq map]. rewrite <- seq_shift, map_map. rewrite Nat.add_0_r. f_equal. unfold mget. cbn [nth]. rewrite (nth_indep _ 0%R (INR a)) by (rewrite repeat_length; auto). apply nth_repeat.
  - unfold traj in IH. rewrite (IH (S a) i j) by (auto; lia). f_equal. f_equal. lia. Qed.
Definition flatU (ks : list nat) (Us : list mat) : mat := hstack (tagged 0 ks Us).
Lemma flatU_col m ks Us i j : trajectories m ks Us -> i < length ks -> j < nth i ks 0 -> colv (S m) (flatU ks Us) (start ks i + j) = INR i :: colv m (traj Us i) j.
Proof. intros H Hi Hj. unfold flatU. rewrite (colv_traj (S m) ks) by (auto using tagged_traj; lia). apply (tagged_col m ks Us H 0 i j Hi Hj). Qed.
Lemma flatU_shape m ks Us : trajectories m ks Us -> ks <> [] -> is_mat (S m) (lsumn ks) (flatU ks Us).
Proof. intros H Hn. assert (HT := tagged_traj m ks Us H 0). apply is_mat_hstack; [apply traj_blocks; auto|]. eapply traj_ne; eauto. Qed.
Lemma flat_shape n ks As : trajectories n ks As -> ks <> [] -> is_mat n (lsumn ks) (hstack As).
Proof. intros H Hn. apply is_mat_hstack; [apply traj_blocks; auto|]. eapply traj_ne; eauto. Qed.
Definition tag (u : vec) : nat := Z.to_nat (Int_part (hd 0%R u)).
Lemma tag_cons i u : tag (INR i :: u) = i.
Proof. unfold tag. cbn [hd]. rewrite INR_IZR_INZ, Int_part_IZR, Nat2Z.id. reflexivity. Qed.

(* ---- a class from a feature --------------------------------------------------------------------------------------------------- *)
Definition flat_cls (r m : nat) (f : feature) : ocls :=
  {| oc_type := 0; oc_inputs := true;
     oc_dim := fun _ _ => Ok (fst f);
     oc_block := fun Q oU => match oU with
                             | Some (M U) => Ok (tab2 (fst f) (ncols Q) (fun b j => vget (snd f (colv r Q j) (colv m U j)) b))
                             | _ => Err TypeError
                             end;
     oc_set := fun E => Ok E; oc_indim := fun _ => m;
     oc_apply := fun E q u => match q, u with
                              | V q, Some (V u) => Ok (V (map (term f E q u) (seq 0 r)))
                              | M Q, Some (M U) => Ok (M (tab2 r (ncols Q) (fun i j => term f E (colv r Q j) (colv m U j) i)))
                              | _, _ => Err TypeError
                              end |}.
Lemma flat_lawful r m f : 0 < r -> 0 < fst f -> lawful r m (flat_cls r m f) f.
Proof. intros Hr Hf. constructor; cbn; auto.
  - intros k Q U oU Hk HQ HU HI. rewrite (HI eq_refl). rewrite (ncols_is_mat r k Q HQ Hr). eexists. split; [reflexivity|]. split; [apply is_mat_tab2|]. intros. apply mget_tab2; auto.
  - intros E q u ou HE Hq Hu HI. rewrite (HI eq_refl). eexists. split; [reflexivity|]. split; [unfold is_vec; rewrite map_length, seq_length; auto|]. intros i Hi.
    rewrite vget_tab by auto. reflexivity.
  - intros k E Q U oU Hk HE HQ HU HI. rewrite (HI eq_refl). rewrite (ncols_is_mat r k Q HQ Hr). eexists. split; [reflexivity|]. split; [apply is_mat_tab2|]. intros. apply mget_tab2; auto. Qed.

Definition flat_feat (r : nat) (mus : list pval) (x : ydesc) : feature :=
  match x with
  | Learn f => (yf_w f mus, fun q u => yf_phi f mus (tag u) q (tl u))
  | Given v => (r, fun q u => map (v (param mus (tag u)) q (tl u)) (seq 0 r))
  end.
Definition flat_arg (r m : nat) (mus : list pval) (x : ydesc) : garg :=
  (flat_cls r (S m) (flat_feat r mus x), match x with Learn _ => None | Given _ => Some (eye r) end).
Definition fargs (r m : nat) (mus : list pval) (xs : list ydesc) : list garg := map (flat_arg r m mus) xs.
Definition ffeats (r : nat) (mus : list pval) (xs : list ydesc) : list feature := map (flat_feat r mus) xs.
(* widths are positive *)
Definition wide (mus : list pval) (x : ydesc) : Prop := match x with Learn f => 0 < yf_w f mus | Given _ => True end.
Lemma flat_described r m mus xs : 0 < r -> Forall (wide mus) xs -> Forall2 (described r (S m)) (fargs r m mus xs) (ffeats r mus xs).
Proof. intros Hr. induction 1 as [|x xs Hx HF IH]; cbn; constructor; auto. split.
  - apply flat_lawful; auto. destruct x; cbn in *; auto.
  - destruct x; cbn; [discriminate|]. intros E [= <-]. apply is_mat_eye. Qed.

(* a matrix for every operator, from those that are learned *)
Fixpoint full (r : nat) (xs : list ydesc) (Es : list mat) : list mat :=
  match xs, Es with
  | Given _ :: xs', _ => eye r :: full r xs' Es
  | Learn _ :: xs', E :: Es' => E :: full r xs' Es'
  | _, _ => []
  end.
Lemma full_valued r m mus xs : forall Es, yshapes r mus xs Es -> valued r (fargs r m mus xs) (ffeats r mus xs) (full r xs Es) /\ learned (fargs r m mus xs) (full r xs Es) = Es.
Proof. induction xs as [|[f|v] xs IH]; intros Es H.
  - destruct Es; cbn in H; [split; cbn; auto|tauto].
  - destruct Es as [|E Es]; cbn in H; [tauto|]. destruct H as [H1 H2]. destruct (IH Es H2) as [A B]. cbn [full fargs ffeats map flat_arg valued learned snd].
    split; [split; [exact H1|split; [discriminate|exact A]]|]. f_equal. exact B.
  - cbn [yshapes] in H. destruct (IH Es H) as [A B]. cbn [full fargs ffeats map flat_arg valued learned snd].
    split; [split; [apply is_mat_eye|split; [congruence|exact A]]|]. exact B. Qed.
Lemma valued_full r m mus xs : forall Fs, valued r (fargs r m mus xs) (ffeats r mus xs) Fs ->
  exists Es, Fs = full r xs Es /\ yshapes r mus xs Es /\ learned (fargs r m mus xs) Fs = Es.
Proof. induction xs as [|[f|v] xs IH]; intros [|F Fs] H; cbn in H; try tauto.
  - exists []. cbn. auto.
  - destruct H as (H1 & _ & H). destruct (IH Fs H) as (Es & -> & A & B). exists (F :: Es). cbn. split; auto. split; auto. f_equal. exact B.
  - destruct H as (_ & H1 & H). destruct (IH Fs H) as (Es & -> & A & B). exists Es. cbn. rewrite (H1 _ eq_refl). auto. Qed.
Lemma unknowns_flat r m mus xs : unknowns (fargs r m mus xs) (ffeats r mus xs) = yunknowns mus xs.
Proof. induction xs as [|[f|v] xs IH]; cbn; auto. Qed.
Lemma term_eye r v q u row : row < r -> term (r, fun q u => map (v q u) (seq 0 r)) (eye r) q u row = v q u row.
Proof. intros H. unfold term. cbn [fst snd]. rewrite <- (bsum_delta_l r row (fun b => v q u b)) by auto. apply bsum_ext. intros b Hb. rewrite mget_eye by auto.
  rewrite vget_tab by auto. destruct (Nat.eqb_spec row b); reflexivity. Qed.
Lemma value_flat r mus xs i q u row : row < r -> forall Es, yshapes r mus xs Es -> value (ffeats r mus xs) (full r xs Es) q (INR i :: u) row = yvalue mus i xs Es q u row.
Proof. intros Hrow. induction xs as [|[f|v] xs IH]; intros Es H.
  - reflexivity.
  - destruct Es as [|E Es]; cbn in H; [tauto|]. cbn [ffeats map flat_feat full value yvalue]. fold (ffeats r mus xs). rewrite IH by tauto. f_equal. unfold term, yterm. cbn [fst snd]. rewrite tag_cons. reflexivity.
  - cbn [ffeats map flat_feat full value yvalue]. fold (ffeats r mus xs). rewrite IH by exact H. f_equal.
    rewrite (term_eye r (fun q u => v (param mus (tag u)) q (tl u)) q (INR i :: u) row Hrow). rewrite tag_cons. reflexivity. Qed.
(* the given operators *)
Fixpoint ygiven (mus : list pval) (i : nat) (xs : list ydesc) (q u : vec) (row : nat) : R :=
  match xs with
  | [] => 0%R
  | Given v :: xs' => (v (param mus i) q u row + ygiven mus i xs' q u row)%R
  | Learn _ :: xs' => ygiven mus i xs' q u row
  end.
Lemma knownval_flat r m mus xs i q u row : row < r -> knownval (fargs r m mus xs) (ffeats r mus xs) q (INR i :: u) row = ygiven mus i xs q u row.
Proof. intros Hrow. induction xs as [|[f|v] xs IH]; auto. cbn [fargs ffeats map flat_arg flat_feat knownval ygiven]. fold (ffeats r mus xs). fold (fargs r m mus xs). rewrite IH. f_equal.
  rewrite (term_eye r (fun q u => v (param mus (tag u)) q (tl u)) q (INR i :: u) row Hrow). rewrite tag_cons. reflexivity. Qed.
Lemma given_flat r m mus xs : forallb given (fargs r m mus xs) = forallb (fun x => match x with Given _ => true | Learn _ => false end) xs.
Proof. induction xs as [|[f|v] xs IH]; cbn; auto. Qed.

Lemma misfit_flat r m mus ks xs Es Qs Zs Us row : 0 < r -> row < r -> mus <> [] -> length ks = length mus ->
  trajectories r ks Qs -> trajectories r ks Zs -> trajectories m ks Us -> yshapes r mus xs Es ->
  misfit_of r (S m) (lsumn ks) (ffeats r mus xs) (full r xs Es) (hstack Qs) (hstack Zs) (flatU ks Us) row = ymisfit r m mus ks xs Es Qs Zs Us row.
Proof. intros Hr Hrow Hn Hk HQ HZ HU HE. unfold misfit_of, ymisfit. rewrite bsum_traj, Hk. apply bsum_ext. intros i Hi. apply bsum_ext. intros j Hj.
  rewrite (colv_traj r ks), (flatU_col m ks), (mget_traj r ks) by (auto; lia). rewrite value_flat by auto. reflexivity. Qed.

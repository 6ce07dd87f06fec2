(* EqBasis.v -- proofs about the == of bases. *)
From Verif Require Import MatAlg LinAlg BasisProofs PodRank PodFinal PodHist GalProofs EqProofs.
From Verif Require Import SpecEq.
#[local] Open Scope nat_scope.

Lemma rleb_true a b : rleb a b = true <-> (a <= b)%R.
Proof. unfold rleb. destruct (Rle_dec a b); split; auto; discriminate || contradiction. Qed.
Lemma allclose_true A B : allclose A B = true <-> forall i j, i < nrows A -> j < ncols A -> close (mget A i j) (mget B i j).
Proof.
  unfold allclose. rewrite forallb_forall. split.
  - intros H i j Hi Hj. specialize (H i ltac:(apply in_seq; lia)). rewrite forallb_forall in H. specialize (H j ltac:(apply in_seq; lia)). now apply rleb_true in H.
  - intros H i Hi. apply in_seq in Hi. apply forallb_forall. intros j Hj. apply in_seq in Hj. apply rleb_true. apply H; lia.
Qed.
Lemma vclose_true u : forall v, length u = length v -> vclose u v = true <-> forall i, i < length u -> close (vget u i) (vget v i).
Proof.
  induction u as [|x u IH]; intros [|y v] H; try discriminate. { split; auto. intros _ i Hi. cbn in Hi. lia. }
  unfold vclose. cbn [combine forallb]. rewrite andb_true_iff. cbn [fst snd]. rewrite rleb_true. specialize (IH v ltac:(cbn in H; lia)). unfold vclose in IH. rewrite IH. split.
  - intros [H1 H2] [|i] Hi; [exact H1|]. apply H2. cbn in Hi. lia.
  - intros K. split; [apply (K 0); cbn; lia|]. intros i Hi. apply (K (S i)). cbn. lia.
Qed.
Lemma w_close_true a b : w_close a b = Ok true <-> close_weights (Some a) (Some b).
Proof.
  destruct a as [u|A], b as [v|B]; cbn [w_close close_weights]; try (split; [discriminate|tauto]).
  - destruct (length u =? length v) eqn:E.
    + apply Nat.eqb_eq in E. split.
      * intros H. inversion H as [H']. split; auto. now apply vclose_true.
      * intros [_ H]. f_equal. now apply vclose_true.
    + apply Nat.eqb_neq in E. split; [discriminate|tauto].
  - destruct ((nrows A =? nrows B) && (ncols A =? ncols B)) eqn:E.
    + apply andb_true_iff in E. rewrite !Nat.eqb_eq in E. split.
      * intros H. inversion H as [H']. split; [tauto|]. split; [tauto|]. now apply allclose_true.
      * intros [_ [_ H]]. f_equal. now apply allclose_true.
    + apply andb_false_iff in E. rewrite !Nat.eqb_neq in E. split; [discriminate|tauto].
Qed.
Lemma b_equal_iff a b : b_eqb a b = Ok true <->
  same_basis_class a b /\ b_n a = b_n b /\ b_rank a = b_rank b /\ b_entries a = b_entries b /\ close_weights (b_weights a) (b_weights b).
Proof.
  assert (K : forall a b, same_basis_class a b -> b_eqb a b =
      if negb (onat_eqb (b_n a) (b_n b) && oz_eqb (b_rank a) (b_rank b)) then Ok false
      else do w <- match b_weights a, b_weights b with None, None => Ok true | Some w, Some w' => w_close w w' | _, _ => Ok false end;
           if w then Ok (oent_eqb (b_entries a) (b_entries b)) else Ok false).
  { clear. intros [l|p] [l'|p']; simpl; tauto. }
  destruct (match a, b with BLin _, BLin _ | BPod _, BPod _ => true | _, _ => false end) eqn:C.
  2:{ destruct a, b; try discriminate; simpl; split; [discriminate|tauto|discriminate|tauto]. }
  assert (SC : same_basis_class a b) by (destruct a, b; try discriminate; exact I). rewrite K by auto. clear K C.
  destruct (onat_eqb (b_n a) (b_n b) && oz_eqb (b_rank a) (b_rank b)) eqn:E; cbn [negb].
  2:{ apply andb_false_iff in E. split; [discriminate|]. intros [_ [H1 [H2 _]]]. apply onat_eq in H1. apply oz_eq in H2. destruct E; congruence. }
  apply andb_true_iff in E. destruct E as [E1 E2]. apply onat_eq in E1. apply oz_eq in E2.
  assert (W : match b_weights a, b_weights b with None, None => Ok true | Some w, Some w' => w_close w w' | _, _ => Ok false end = Ok true <-> close_weights (b_weights a) (b_weights b)).
  { destruct (b_weights a) as [w|], (b_weights b) as [w'|]; try (apply w_close_true); simpl; try tauto.
    - split; [discriminate|]. destruct w; tauto.
    - split; [discriminate|]. destruct w'; tauto. }
  destruct (match b_weights a, b_weights b with None, None => Ok true | Some w, Some w' => w_close w w' | _, _ => Ok false end) as [[]|e]; cbn [bind].
  - split.
    + intros H. inversion H as [H']. apply oent_eq in H'. tauto.
    + intros [_ [_ [_ [H _]]]]. f_equal. now apply oent_eq.
  - split; [discriminate|]. intros [_ [_ [_ [_ H]]]]. apply W in H. discriminate.
  - split; [discriminate|]. intros [_ [_ [_ [_ H]]]]. apply W in H. discriminate.
Qed.
Lemma close_refl x : close x x.
Proof.
  unfold close. replace (x - x)%R with 0%R by lra. rewrite Rabs_R0.
  assert (0 < / 10 ^ 8)%R by (apply Rinv_0_lt_compat; lra). assert (0 <= / 10 ^ 5 * Rabs x)%R by (apply Rmult_le_pos; [left; apply Rinv_0_lt_compat; lra|apply Rabs_pos]). lra.
Qed.
Lemma close_weights_refl W : close_weights W W.
Proof. destruct W as [[w|A]|]; simpl; auto; repeat split; auto; intros; apply close_refl. Qed.
Lemma b_refl b : b_eqb b b = Ok true.
Proof. apply b_equal_iff. split; [destruct b; exact I|]. repeat (split; [reflexivity|]). apply close_weights_refl. Qed.
Lemma b_r_rank a b : same_basis_class a b -> b_rank a = b_rank b -> b_r a = b_r b.
Proof. destruct a, b; simpl; try tauto; intros _ H. - f_equal. inversion H. lia. - now rewrite H. Qed.
Lemma dec_entries b q locs : b_decompress b q locs = lin_decompress (b_entries b) q locs.
Proof. destruct b; reflexivity. Qed.
Lemma comp_entries b a : b_compress b a = lin_compress (b_entries b) (b_weights b) a.
Proof. destruct b; reflexivity. Qed.
Lemma b_decompress_alike a b : b_eqb a b = Ok true -> b_n a = b_n b /\ b_r a = b_r b /\ forall q locs, b_decompress a q locs = b_decompress b q locs.
Proof. intros H. apply b_equal_iff in H. destruct H as [H1 [H2 [H3 [H4 _]]]]. split; auto. split; [now apply b_r_rank|]. intros q locs. now rewrite !dec_entries, H4. Qed.
Lemma b_compress_alike a b : b_eqb a b = Ok true -> b_weights a = b_weights b -> forall x, b_compress a x = b_compress b x.
Proof. intros H W x. apply b_equal_iff in H. destruct H as [_ [_ [_ [H _]]]]. now rewrite !comp_entries, H, W. Qed.
Lemma close_wget n W W' : ok_weight n W -> ok_weight n W' -> close_weights W W' -> forall i j, i < n -> j < n -> close (wget W i j) (wget W' i j).
Proof.
  intros O O' H i j Hi Hj. destruct W as [[u|A]|], W' as [[v|B]|]; simpl in *; try tauto; try apply close_refl.
  - destruct H as [_ H]. destruct (i =? j); [apply H; now rewrite O|apply close_refl].
  - destruct H as [_ [_ H]]. apply H; [unfold nrows; now rewrite (is_mat_len _ _ _ O)|]. rewrite (ncols_is_mat n n A O); lia.
Qed.
Lemma bsum_abs_le n f g : (forall i, i < n -> (Rabs (f i) <= g i)%R) -> (Rabs (bsum n f) <= bsum n g)%R.
Proof.
  induction n as [|n IH]; intros H. { cbn. rewrite Rabs_R0. lra. }
  cbn [bsum]. eapply Rle_trans; [apply Rabs_triang|]. apply Rplus_le_compat; auto.
Qed.
Lemma bsum_minus n f g : (bsum n f - bsum n g = bsum n (fun i => f i - g i))%R.
Proof. induction n as [|n IH]; cbn [bsum]; [lra|]. rewrite <- IH. lra. Qed.
Lemma b_compress_close n r k W W' A A' a b x : basis_of n r W A a -> basis_of n r W' A' b -> b_eqb a b = Ok true -> shaped n k x ->
  exists q q', b_compress a x = Ok q /\ b_compress b x = Ok q' /\
  forall c j, c < r -> j < k -> (Rabs (aget q c j - aget q' c j) <=
    bsum n (fun i => bsum n (fun l => Rabs (mget A i c) * (/ 10 ^ 8 + / 10 ^ 5 * Rabs (wget W' i l)) * Rabs (aget x l j))))%R.
Proof.
  intros Ba Bb H Hx. destruct (b_compress_ok n r k W A a x Ba Hx) as (q & E & _ & _ & G). destruct (b_compress_ok n r k W' A' b x Bb Hx) as (q' & E' & _ & _ & G').
  exists q, q'. split; auto. split; auto. intros c j Hc Hj. rewrite G, G' by auto.
  apply b_equal_iff in H. destruct H as [_ [_ [_ [EE H]]]]. destruct Ba as (_ & _ & _ & O & E1 & E2), Bb as (_ & _ & _ & O' & E1' & E2'). subst W W'.
  assert (A' = A) by congruence. subst A'. unfold wip. rewrite bsum_minus. apply bsum_abs_le. intros i Hi. rewrite bsum_minus. apply bsum_abs_le. intros l Hl.
  replace (mget A i c * wget (b_weights a) i l * aget x l j - mget A i c * wget (b_weights b) i l * aget x l j)%R
    with (mget A i c * (wget (b_weights a) i l - wget (b_weights b) i l) * aget x l j)%R by ring.
  rewrite !Rabs_mult. apply Rmult_le_compat_r; [apply Rabs_pos|]. apply Rmult_le_compat_l; [apply Rabs_pos|]. apply (close_wget n); auto.
Qed.

(* ---- what == of bases does not do ---- *)
Definition lb1 (w : R) : lb := {| lb_entries := [[1%R]]; lb_weights := Some (WDiag [w]); lb_n := Some 1; lb_r := 1; lb_name := None |}.
Lemma lb1_made w : lb_init [[1%R]] (Some (WDiag [w])) false None = Ok (lb1 w).
Proof. reflexivity. Qed.
Lemma lb1_eqb w w' : b_eqb (BLin (lb1 w)) (BLin (lb1 w')) = Ok true <-> close w w'.
Proof.
  rewrite b_equal_iff. simpl. split.
  - intros [_ [_ [_ [_ [_ H]]]]]. apply (H 0). lia.
  - intros H. repeat (split; [exact I || reflexivity|]). intros [|i] Hi; [exact H|lia].
Qed.
Lemma lb1_eqb_false w w' : ~ close w w' -> b_eqb (BLin (lb1 w)) (BLin (lb1 w')) = Ok false.
Proof.
  intros H. destruct (b_eqb (BLin (lb1 w)) (BLin (lb1 w'))) as [[]|e] eqn:E; auto.
  - apply lb1_eqb in E. contradiction.
  - exfalso. cbn -[vclose meqb] in E. destruct (vclose [w] [w']); discriminate E.
Qed.
Definition uM : R := (1 / 10 ^ 5)%R.
Lemma close_pos x y : (0 <= y)%R -> close x y <-> (- (/ 10 ^ 8 + / 10 ^ 5 * y) <= x - y <= / 10 ^ 8 + / 10 ^ 5 * y)%R.
Proof. intros H. unfold close. rewrite (Rabs_pos_eq y H). split; intros K. - revert K. unfold Rabs. destruct (Rcase_abs _); lra. - apply Rabs_le. lra. Qed.
Lemma b_compress_refuted : exists a b, lb_init [[1%R]] (Some (WDiag [1%R])) false None = Ok a /\ lb_init [[1%R]] (Some (WDiag [1 + uM]%R)) false None = Ok b /\
  b_eqb (BLin a) (BLin b) = Ok true /\ b_eqb (BLin b) (BLin a) = Ok true /\
  forall x, x <> 0%R -> exists y z, b_compress (BLin a) (V [x]) = Ok (V [y]) /\ b_compress (BLin b) (V [x]) = Ok (V [z]) /\ y <> z.
Proof.
  exists (lb1 1), (lb1 (1 + uM)). split; [reflexivity|]. split; [reflexivity|]. split; [apply lb1_eqb, close_pos; unfold uM; lra|].
  split; [apply lb1_eqb, close_pos; unfold uM; lra|]. intros x Hx. do 2 eexists. split; [reflexivity|]. split; [reflexivity|].
  unfold dot, lsum. cbn. unfold uM. intros E. apply Hx. assert (x * (1 / 10 ^ 5) = 0)%R by (revert E; cbn; lra). lra.
Qed.
Lemma b_trans_refuted : exists a b c, lb_init [[1%R]] (Some (WDiag [1%R])) false None = Ok a /\ lb_init [[1%R]] (Some (WDiag [1 + uM]%R)) false None = Ok b /\
  lb_init [[1%R]] (Some (WDiag [1 + 2 * uM]%R)) false None = Ok c /\
  b_eqb (BLin a) (BLin b) = Ok true /\ b_eqb (BLin b) (BLin c) = Ok true /\ b_eqb (BLin a) (BLin c) = Ok false.
Proof.
  exists (lb1 1), (lb1 (1 + uM)), (lb1 (1 + 2 * uM)). do 3 (split; [reflexivity|]). split; [apply lb1_eqb, close_pos; unfold uM; lra|].
  split; [apply lb1_eqb, close_pos; unfold uM; lra|]. apply lb1_eqb_false. rewrite close_pos by (unfold uM; lra). unfold uM. lra.
Qed.
Lemma b_sym_refuted : exists (w : R) a b, lb_init [[1%R]] (Some (WDiag [1%R])) false None = Ok a /\ lb_init [[1%R]] (Some (WDiag [w])) false None = Ok b /\
  b_eqb (BLin a) (BLin b) = Ok true /\ b_eqb (BLin b) (BLin a) = Ok false.
Proof.
  exists (1 + 1001 / 10 ^ 8 + 1 / 10 ^ 10)%R, (lb1 1), (lb1 (1 + 1001 / 10 ^ 8 + 1 / 10 ^ 10)). do 2 (split; [reflexivity|]). split; [apply lb1_eqb, close_pos; lra|].
  apply lb1_eqb_false. rewrite close_pos by lra. lra.
Qed.
Lemma b_mixed_refuted : exists a b, lb_init (eye 2) (Some (WDiag [1; 1]%R)) true None = Ok a /\ lb_init (eye 2) (Some (WMat (eye 2))) true None = Ok b /\
  (forall x, b_compress (BLin a) (V x) = b_compress (BLin b) (V x)) /\ b_eqb (BLin a) (BLin b) = Err OtherError.
Proof.
  do 2 eexists. split; [reflexivity|]. split; [reflexivity|]. split; [|reflexivity].
  intros [|x [|y [|z l]]]; try reflexivity. cbn. unfold dot, lsum. cbn. f_equal. f_equal. f_equal; [ring|]. f_equal. ring.
Qed.
(* LinearBasis and PODBasis are never equal *)
Lemma lin_pod l p : b_eqb (BLin l) (BPod p) = Ok false /\ b_eqb (BPod p) (BLin l) = Ok false.
Proof. split; reflexivity. Qed.
(* unfitted PODBasis objects *)
Lemma new_pods_equal X a a' mx mx' sv sv' W nm nm' p p' : pod_init X a mx sv W nm = Ok p -> pod_init X a' mx' sv' W nm' = Ok p' -> b_eqb (BPod p) (BPod p') = Ok true.
Proof.
  assert (K : forall a mx sv nm p, pod_init X a mx sv W nm = Ok p -> p_n p = None /\ p_r p = None /\ p_entries p = None /\ p_weights p = W).
  { clear. intros a mx sv nm p H. unfold pod_init in H. destruct (pick a); cbn [bind] in H; [|discriminate].
    destruct (match mx with None => _ | Some _ => _ end); cbn [bind] in H; [|discriminate].
    destruct (match W with Some _ => _ | None => _ end); cbn [bind] in H; [|discriminate]. inversion H; subst. repeat split. }
  intros H H'. destruct (K _ _ _ _ _ H) as [E1 [E2 [E3 E4]]], (K _ _ _ _ _ H') as [F1 [F2 [F3 F4]]].
  apply b_equal_iff. simpl. rewrite E1, E2, E3, E4, F1, F2, F3, F4. repeat (split; [exact I || reflexivity|]). apply close_weights_refl.
Qed.
Lemma fitted_pods_refuted : exists p p' q q', pod_init noX (by_num 1) None (SCustom svd2) None None = Ok p /\ pod_init noX (by_num 2) None (SCustom svd2) None None = Ok p' /\
  b_eqb (BPod p) (BPod p') = Ok true /\ pod_fit noX (S2 (eye 2)) p = (q, None) /\ pod_fit noX (S2 (eye 2)) p' = (q', None) /\
  b_r (BPod q) = Some 1 /\ b_r (BPod q') = Some 2 /\ b_eqb (BPod q) (BPod q') = Ok false.
Proof.
  set (pod1 := mkpod None (CNum 1) false None (SCustom svd2) None None None None None None None None None None).
  assert (I1 : pod_init noX (by_num 1) None (SCustom svd2) None None = Ok pod1) by reflexivity. pose proof C14_pod2 as I2.
  destruct (fit2 pod1 eq_refl eq_refl eq_refl eq_refl ltac:(cbn; lia)) as (q & E & S & D & _). destruct (fit2 pod2 eq_refl eq_refl eq_refl eq_refl ltac:(cbn; lia)) as (q' & E' & S' & D' & _).
  exists pod1, pod2, q, q'. split; auto. split; auto. split; [eapply new_pods_equal; eauto|]. split; auto. split; auto.
  pose proof (C13_num noX 1 q s2 2 2 D S ltac:(lia)) as [L [_ [K _]]]. pose proof (C13_num noX 2 q' s2 2 2 D' S' ltac:(lia)) as [L' [_ [K' _]]].
  change (Nat.min (Z.to_nat 1) 2) with 1 in K. change (Nat.min (Z.to_nat 2) 2) with 2 in K'.
  split; [cbn; now rewrite K|]. split; [cbn; now rewrite K'|]. unfold b_eqb. cbn [b_rank]. rewrite K, K'. cbn [oz_eqb]. change (Z.of_nat 1 =? Z.of_nat 2)%Z with false.
  now rewrite andb_false_r.
Qed.

(* ---- BasisMulti ---- *)
Lemma bases_true l : forall l', length l = length l' -> bases_eqb l l' = Ok true <-> Forall2 (fun a b => b_eqb a b = Ok true) l l'.
Proof.
  induction l as [|a l IH]; intros [|b l'] H; try discriminate. { split; constructor. }
  cbn [bases_eqb]. specialize (IH l' ltac:(cbn in H; lia)). destruct (b_eqb a b) as [[]|e] eqn:E; cbn [bind].
  - rewrite IH. split; [intros; now constructor|]. intros K. now inversion K.
  - split; [discriminate|]. intros K. inversion K; congruence.
  - split; [discriminate|]. intros K. inversion K; congruence.
Qed.
Lemma bm_true l l' : bm_eqb l l' = Ok true <-> Forall2 (fun a b => b_eqb a b = Ok true) l l'.
Proof.
  unfold bm_eqb. destruct (length l =? length l') eqn:E; cbn [negb].
  - apply Nat.eqb_eq in E. now apply bases_true.
  - apply Nat.eqb_neq in E. split; [discriminate|]. intros H. exfalso. apply E. clear E. induction H; cbn; auto.
Qed.
Lemma bm_sizes l l' : Forall2 (fun a b => b_eqb a b = Ok true) l l' -> full_sizes l' = full_sizes l /\ red_sizes l' = red_sizes l.
Proof.
  intros H. unfold full_sizes, red_sizes. split; f_equal; apply (F2_map (fun a b => b_eqb a b = Ok true)); auto; intros a b K; apply b_decompress_alike in K; symmetry; apply K.
Qed.
Lemma bsplit_same l l' : full_sizes l' = full_sizes l -> red_sizes l' = red_sizes l -> forall a, bsplit l' a = bsplit l a.
Proof. intros F G a. unfold bsplit, is_reduced. now rewrite F, G. Qed.
Lemma bm_decompress_alike l l' : bm_eqb l l' = Ok true -> forall q locs, bm_decompress l' q locs = bm_decompress l q locs.
Proof.
  intros H q locs. apply bm_true in H. destruct (bm_sizes l l' H) as [F G]. unfold bm_decompress. rewrite F, G, (bsplit_same l l' F G).
  destruct (size_check (red_sizes l) q); cbn [bind]; auto. destruct (match locs with Some _ => _ | None => _ end); cbn [bind]; auto.
  destruct (bsplit l q); cbn [bind]; auto. rewrite (zipM_ext (fun b x => b_decompress b x locs) (fun b x => b_decompress b x locs) l l'); auto.
  eapply F2_sub; [exact H|]. intros u v K x. symmetry. now apply b_decompress_alike.
Qed.
Lemma bm_compress_alike l l' : bm_eqb l l' = Ok true -> map b_weights l' = map b_weights l -> forall a, bm_compress l' a = bm_compress l a.
Proof.
  intros H W a. apply bm_true in H. destruct (bm_sizes l l' H) as [F G]. unfold bm_compress. rewrite F, (bsplit_same l l' F G).
  destruct (size_check (full_sizes l) a); cbn [bind]; auto. destruct (bsplit l a); cbn [bind]; auto. rewrite (zipM_ext b_compress b_compress l l'); auto.
  clear -H W. induction H; [constructor|]. cbn [map] in W. inversion W. constructor; auto. intros z. symmetry. now apply b_compress_alike.
Qed.
Lemma bm_refl l : bm_eqb l l = Ok true.
Proof. apply bm_true. induction l; constructor; auto. apply b_refl. Qed.

(* PodRank.v -- how many singular vectors each criterion keeps. *)
From Verif Require Import LinAlg MatAlg EckartYoung PreProofs SpecBasis.
From Coq Require Import Lra Lia Psatz Permutation.
#[local] Open Scope nat_scope.

Lemma rltb_true a b : rltb a b = true <-> (a < b)%R. Proof. unfold rltb. destruct (Rlt_dec a b); split; auto; discriminate. Qed.
Lemma rleb_true a b : rleb a b = true <-> (a <= b)%R. Proof. unfold rleb. destruct (Rle_dec a b); split; auto; discriminate. Qed.

(* ---- counting -------------------------------------------------------------------------------------------- *)
Lemma countb_le {A} (f : A -> bool) l : countb f l <= length l.
Proof. unfold countb. induction l as [|x l IH]; cbn; [lia|]. destruct (f x); cbn; lia. Qed.
Lemma countb_none {A} (f : A -> bool) l : (forall x, In x l -> f x = false) -> countb f l = 0.
Proof. unfold countb. induction l as [|x l IH]; cbn; auto. intros H. rewrite (H x) by auto. auto. Qed.
(* if f is true on a prefix only, the count is the length of the prefix *)
Lemma countb_prefix {A} (f : A -> bool) (d : A) l : (forall i j, i <= j -> j < length l -> f (nth j l d) = true -> f (nth i l d) = true) ->
  forall i, i < length l -> (f (nth i l d) = true <-> i < countb f l).
Proof.
  induction l as [|x l IH]; intros Hm i Hi. { cbn in Hi. lia. }
  assert (Hm' : forall i j, i <= j -> j < length l -> f (nth j l d) = true -> f (nth i l d) = true).
  { intros a b Hab Hb. apply (Hm (S a) (S b)); cbn; lia. }
  unfold countb in *. cbn [filter]. destruct (f x) eqn:E.
  - destruct i as [|i]; cbn [nth length]. { rewrite E. split; auto. lia. } rewrite (IH Hm' i) by (cbn in Hi; lia). cbn. lia.
  - assert (N : forall y, In y l -> f y = false).
    { intros y Hy. apply (In_nth _ _ d) in Hy. destruct Hy as (j & Hj & <-). destruct (f (nth j l d)) eqn:Ey; auto.
      pose proof (Hm 0 (S j) ltac:(lia) ltac:(cbn; lia) Ey) as H0. cbn in H0. congruence. }
    pose proof (countb_none f l N) as Z. unfold countb in Z. rewrite Z. split; [|lia]. intros H. destruct i as [|i]; cbn [nth] in H; [congruence|].
    rewrite N in H; [discriminate|]. apply nth_In. cbn in Hi. lia.
Qed.

(* ---- energies -------------------------------------------------------------------------------------------- *)
Lemma sqv_length s : length (sqv s) = length s. Proof. unfold sqv. apply map_length. Qed.
Lemma vget_sqv s i : i < length s -> vget (sqv s) i = Rsqr (vget s i).
Proof. intros H. unfold sqv. now rewrite vget_map. Qed.
Lemma lsum_sqv s : lsum (sqv s) = tot2 s.
Proof. rewrite lsum_nth, sqv_length. unfold tot2. apply bsum_ext. intros i Hi. now apply vget_sqv. Qed.
Lemma tot2_nonneg s : (0 <= tot2 s)%R. Proof. unfold tot2. apply bsum_nonneg. intros. apply Rle_0_sqr. Qed.
Lemma cumsumR_length l a : length (cumsumR a l) = length l. Proof. revert a. induction l; cbn; auto. Qed.
Lemma cumsumR_nth l : forall a i, i < length l -> vget (cumsumR a l) i = (a + bsum (S i) (vget l))%R.
Proof.
  induction l as [|x l IH]; intros a i Hi; [cbn in Hi; lia|]. cbn [cumsumR]. destruct i as [|i].
  - cbn. ring.
  - change (vget (_ :: cumsumR (a + x) l) (S i)) with (vget (cumsumR (a + x) l) i). rewrite IH by (cbn in Hi; lia).
    rewrite (bsum_S_l (S i)). change (vget (x :: l) 0) with x. rewrite Rplus_assoc. reflexivity.
Qed.
Lemma energy_length s : length (energy s) = length s. Proof. unfold energy. now rewrite map_length, cumsumR_length, sqv_length. Qed.
Lemma energy_nth s i : i < length s -> vget (energy s) i = kept s (S i).
Proof.
  intros H. unfold energy. rewrite vget_map by now rewrite cumsumR_length, sqv_length. rewrite cumsumR_nth by now rewrite sqv_length. rewrite lsum_sqv. unfold kept. f_equal.
  rewrite Rplus_0_l. apply bsum_ext. intros j Hj. apply vget_sqv. lia.
Qed.
Lemma kept_mono s i j : tot2 s <> 0%R -> i <= j -> (kept s i <= kept s j)%R.
Proof.
  intros Ht Hij. pose proof (tot2_nonneg s). assert (0 < tot2 s)%R by lra. unfold kept. apply Rmult_le_compat_r. { left. now apply Rinv_0_lt_compat. }
  replace j with (i + (j - i)) by lia. rewrite bsum_split. pose proof (bsum_nonneg (j - i) (fun l => Rsqr (vget s (i + l))) ltac:(intros; apply Rle_0_sqr)). lra.
Qed.
Lemma kept_lost s r : tot2 s <> 0%R -> r <= length s -> (lost s r = 1 - kept s r)%R.
Proof.
  intros Ht Hr. unfold lost, kept. assert (E : tot2 s = (bsum r (fun i => Rsqr (vget s i)) + bsum (length s - r) (fun i => Rsqr (vget s (r + i))))%R).
  { unfold tot2. rewrite <- bsum_split. f_equal. lia. }
  apply (Rmult_eq_reg_r (tot2 s)); auto. unfold Rdiv. rewrite Rmult_assoc, Rinv_l by auto. rewrite Rmult_minus_distr_r, (Rmult_assoc _ (/ tot2 s)), Rinv_l by auto. lra.
Qed.
Lemma kept_all s : tot2 s <> 0%R -> kept s (length s) = 1%R.
Proof. intros H. unfold kept. fold (tot2 s). unfold tot2 at 1. fold (tot2 s). unfold Rdiv. apply Rinv_r. exact H. Qed.
Lemma kept_0 s : kept s 0 = 0%R. Proof. unfold kept. cbn. unfold Rdiv. ring. Qed.
Lemma lost_nonneg s r : (0 <= lost s r)%R.
Proof.
  unfold lost. destruct (Req_dec (tot2 s) 0) as [E|E]. { rewrite E. unfold Rdiv. rewrite Rinv_0. lra. }
  pose proof (tot2_nonneg s). apply Rmult_le_pos. { apply bsum_nonneg. intros. apply Rle_0_sqr. } left. apply Rinv_0_lt_compat. lra.
Qed.
Lemma bsum_div' n c f : bsum n (fun i => f i / c)%R = (bsum n f / c)%R.
Proof. apply bsum_div. Qed.
Lemma kept_scale s c r : c <> 0%R -> kept (map (fun x => x / c)%R s) r = kept s r.
Proof.
  intros Hc. assert (G : forall i, vget (map (fun x => x / c)%R s) i = (vget s i / c)%R).
  { intros i. destruct (Nat.lt_ge_cases i (length s)) as [H|H]. { now rewrite vget_map. } rewrite !vget_over by (try rewrite map_length; auto). unfold Rdiv. ring. }
  assert (S : forall m, bsum m (fun i => Rsqr (vget (map (fun x => x / c)%R s) i)) = (bsum m (fun i => Rsqr (vget s i)) / (c * c))%R).
  { intros m. rewrite <- bsum_div'. apply bsum_ext. intros i Hi. rewrite G. unfold Rsqr. field. exact Hc. }
  unfold kept, tot2. rewrite map_length, !S. set (a := bsum r _). set (b := bsum (length s) _). unfold Rdiv. rewrite (Rinv_mult b (/ (c * c))), Rinv_inv.
  replace (a * / (c * c) * (/ b * (c * c)))%R with (a * / b * (/ (c * c) * (c * c)))%R by ring. rewrite Rinv_l; [ring|]. now apply Rmult_integral_contrapositive.
Qed.
Lemma tot2_scale s c : c <> 0%R -> (tot2 (map (fun x => x / c)%R s) = tot2 s / (c * c))%R.
Proof.
  intros Hc. unfold tot2. rewrite map_length, <- bsum_div'. apply bsum_ext. intros i Hi. rewrite vget_map by auto. unfold Rsqr. field. exact Hc.
Qed.

(* ---- ranks ------------------------------------------------------------------------------------------------ *)
(* the number of leading partial energies with property g, g going from true to false as the energy grows *)
Lemma count_energy s (g : R -> bool) : tot2 s <> 0%R -> (forall x y, (x <= y)%R -> g y = true -> g x = true) ->
  forall j, 1 <= j <= length s -> (g (kept s j) = true <-> j <= countb g (energy s)).
Proof.
  intros Ht Hg j Hj. pose proof (countb_prefix g 0%R (energy s)) as C. rewrite energy_length in C.
  assert (M : forall i j, i <= j -> j < length s -> g (nth j (energy s) 0%R) = true -> g (nth i (energy s) 0%R) = true).
  { intros a b Hab Hb. change (nth ?x (energy s) 0%R) with (vget (energy s) x). rewrite !energy_nth by lia. apply Hg. apply kept_mono; auto. lia. }
  specialize (C M (j - 1) ltac:(lia)). change (nth ?x (energy s) 0%R) with (vget (energy s) x) in C. rewrite energy_nth in C by lia. replace (S (j - 1)) with j in C by lia.
  rewrite C. lia.
Qed.
Lemma least_count s (g : R -> bool) m : tot2 s <> 0%R -> (forall x y, (x <= y)%R -> g y = true -> g x = true) -> 1 <= m <= length s ->
  least_upto m (fun j => g (kept s j) = false) (Nat.min (countb g (energy s) + 1) m).
Proof.
  intros Ht Hg Hm. pose proof (count_energy s g Ht Hg) as C. pose proof (countb_le g (energy s)) as Cl. rewrite energy_length in Cl. set (c := countb g (energy s)) in *. repeat split; try lia.
  - intros j Hj F. assert (g (kept s j) = true) by (apply C; lia). congruence.
  - destruct (Nat.lt_ge_cases c m) as [H|H]; [|right; lia]. left. replace (Nat.min (c + 1) m) with (c + 1) by lia.
    destruct (g (kept s (c + 1))) eqn:E; auto. apply C in E; lia.
Qed.
Lemma least_upto_iff m P Q r : (forall j, 1 <= j <= m -> (P j <-> Q j)) -> least_upto m P r -> least_upto m Q r.
Proof.
  intros H (H1 & H2 & H3). repeat split; try lia.
  - intros j Hj. rewrite <- H by lia. auto.
  - destruct H3 as [H3|]; auto. left. apply H; auto.
Qed.
Lemma least_upto_unique m P r r' : least_upto m P r -> least_upto m P r' -> r = r'.
Proof.
  intros (H1 & H2 & H3) (H1' & H2' & H3'). destruct (Nat.lt_trichotomy r r') as [H|[H|H]]; auto; exfalso.
  - destruct H3 as [H3|H3]; [|lia]. apply (H2' r); auto. lia.
  - destruct H3' as [H3'|H3']; [|lia]. apply (H2 r'); auto. lia.
Qed.

(* ---- what set_r does ------------------------------------------------------------------------------------ *)
Lemma py_slice_to {A} z (l : list A) : (0 <= z)%Z -> py_slice None (Some z) l = firstn (Z.to_nat z) l.
Proof.
  intros Hz. unfold py_slice. set (i := py_index _ z). assert (Hi : i = Nat.min (Z.to_nat z) (length l)).
  { unfold i, py_index. destruct (Z.ltb_spec z 0); lia. }
  unfold slice. rewrite Hi, Nat.sub_0_r. cbn [skipn]. destruct (Nat.le_gt_cases (Z.to_nat z) (length l)) as [H|H]. { now rewrite Nat.min_l. }
  rewrite Nat.min_r by lia. rewrite firstn_all. rewrite firstn_all2; auto. lia.
Qed.
Lemma set_r_fitted z p s L : p_svals p = Some s -> p_left p = Some L -> (0 <= z)%Z -> 0 < length L -> forall q e, set_r z p = (q, e) -> tot2 s <> 0%R ->
  let r := Nat.min (Z.to_nat z) (ncols L) in
  p_svals q = Some s /\ p_left q = Some L /\ p_right q = p_right p /\ p_entries q = Some (map (firstn r) L) /\ p_cum q = Some (kept s r) /\ p_res q = Some (1 - kept s r)%R /\
  p_crit q = p_crit p /\ (Forall (fun row => length row = ncols L) L -> p_r q = Some (Z.of_nat r)) /\ p_n q = Some (length L) /\
  p_weights q = p_weights p /\ p_sqrtw q = p_sqrtw p /\ p_solver q = p_solver p /\ p_max q = p_max p /\ p_est q = p_est p /\ p_name q = p_name p.
Proof.
  intros Hs HL Hz HLp q e E Ht r. unfold set_r in E. rewrite Hs, HL in E. cbv zeta in E.
  set (z' := if (Z.of_nat (ncols L) <? z)%Z then Z.of_nat (ncols L) else z) in E. rewrite lsum_sqv in E. destruct (Req_EM_T (tot2 s) 0) as [?|_]; [contradiction|].
  assert (Hz' : (0 <= z')%Z) by (unfold z'; destruct (Z.ltb_spec (Z.of_nat (ncols L)) z); lia).
  assert (Hr : Z.to_nat z' = r). { unfold z', r. destruct (Z.ltb_spec (Z.of_nat (ncols L)) z); lia. }
  assert (Hc : cols_to z' L = map (firstn r) L). { unfold cols_to. apply map_ext. intros row. now rewrite py_slice_to, Hr. }
  assert (Hk : (lsum (py_slice None (Some z') (sqv s)) / tot2 s)%R = kept s r).
  { unfold kept. f_equal. rewrite py_slice_to, Hr by auto. rewrite lsum_nth, firstn_length, sqv_length. clear. clearbody r.
    destruct (Nat.le_gt_cases r (length s)) as [H|H].
    - rewrite Nat.min_l by auto. apply bsum_ext. intros i Hi. rewrite <- vget_sqv by lia. unfold vget. rewrite <- (firstn_skipn r (sqv s)) at 2.
      rewrite app_nth1; auto. rewrite firstn_length, sqv_length. lia.
    - rewrite Nat.min_r by lia. replace r with (length s + (r - length s)) at 2 by lia. rewrite bsum_split.
      rewrite (bsum_0 (r - length s)) by (intros; rewrite vget_over by lia; unfold Rsqr; ring). rewrite Rplus_0_r. apply bsum_ext. intros i Hi. rewrite <- vget_sqv by auto.
      rewrite firstn_all2; auto. rewrite sqv_length. lia. }
  rewrite Hc, Hk in E. apply pair_equal_spec in E. destruct E as [<- _]. unfold pod_with_entries, pod_with_r. cbn. repeat split; auto.
  - intros HF. f_equal. f_equal. destruct L as [|row L]; [cbn in HLp; lia|]. cbn [map ncols]. rewrite firstn_length. inversion HF; subst. fold (ncols (row :: L)). unfold r. cbn [ncols]. lia.
  - unfold nrows. now rewrite map_length.
Qed.
Lemma set_r_keeps z p q e : set_r z p = (q, e) -> p_svals q = p_svals p /\ p_left q = p_left p /\ p_right q = p_right p /\
  p_weights q = p_weights p /\ p_sqrtw q = p_sqrtw p /\ p_solver q = p_solver p /\ p_max q = p_max p /\ p_name q = p_name p /\ p_est q = p_est p.
Proof.
  unfold set_r. destruct (p_svals p) as [s|] eqn:Es; [destruct (p_left p) as [L|] eqn:El|]; cbv zeta.
  - destruct (Req_EM_T _ _); intros E; apply pair_equal_spec in E; destruct E as [<- _]; cbn; rewrite ?Es, ?El; repeat split; auto.
  - intros E; apply pair_equal_spec in E; destruct E as [<- _]; cbn; rewrite ?Es, ?El; repeat split; auto.
  - intros E; apply pair_equal_spec in E; destruct E as [<- _]; cbn; rewrite ?Es; repeat split; auto.
Qed.
Lemma from_criterion_inv p q : from_criterion p = (q, None) -> exists s, p_svals p = Some s /\ p_svals q = Some s /\ p_left q = p_left p /\ tot2 s <> 0%R /\ set_r (rank_of (p_crit p) s) p = (q, None).
Proof.
  unfold from_criterion. destruct (p_svals p) as [s|] eqn:Es; [|discriminate]. rewrite lsum_sqv. destruct (Req_EM_T _ _); [discriminate|]. intros E.
  exists s. destruct (set_r_keeps _ _ _ _ E) as (K1 & K2 & _). rewrite K1, K2. auto.
Qed.
Lemma andthen_inv o f q : andthen o f = (q, None) -> exists p, o = (p, None) /\ f p = (q, None).
Proof. destruct o as [p [e|]]; cbn; [discriminate|eauto]. Qed.
Lemma store_svd_inv L s Rt p q : store_svd L s Rt p = (q, None) -> exists s', normalized s = Ok s' /\ q = pod_with_svd L (Some s') Rt p.
Proof. unfold store_svd. destruct (normalized s); intros E; [|discriminate]. injection E as <-. eauto. Qed.
Lemma dimensioned_inv X c q : dimensioned X c q -> exists p, p_crit p = c /\ from_criterion p = (q, None).
Proof.
  intros [(p & st & Hc & E)|[(p & a & Hc & Hs & E)|(L & s & Rt & a & mx & W & nm & Hc & E)]].
  - unfold pod_fit in E. destruct (snap_mat st); [|discriminate]. destruct (pod_svd _ _ _ _) as [[[L s] Rt]|]; [|discriminate].
    apply andthen_inv in E. destruct E as (p1 & E1 & E2). apply store_svd_inv in E1. destruct E1 as (s' & _ & ->). exists (pod_with_svd (mcols 0 (match p_max p with Some m => Nat.min m (Nat.min (nrows a) (ncols a)) | None => Nat.min (nrows a) (ncols a) end) L) (Some s') (Some (mT (firstn (match p_max p with Some m => Nat.min m (Nat.min (nrows a) (ncols a)) | None => Nat.min (nrows a) (ncols a) end) Rt))) (pod_with_est (match p_solver p with SRandom => (match p_max p with Some m => Nat.min m (Nat.min (nrows a) (ncols a)) | None => Nat.min (nrows a) (ncols a) end) <? Nat.min (nrows a) (ncols a) | _ => false end) p)). split; [exact Hc|exact E2].
  - unfold set_dimension in E. rewrite Hc in E. destruct (p_svals p) eqn:Es; [|congruence]. exists (pod_with_crit c p). auto.
  - unfold from_svd in E. rewrite Hc in E. unfold pod_init in E. rewrite Hc in E. cbn [bind] in E.
    destruct (match mx with None => _ | Some z => _ end) as [mx'|]; [|discriminate]. cbn [bind] in E.
    destruct (match W with Some _ => _ | None => _ end) as [sw|]; [|discriminate]. cbn [bind] in E.
    destruct (andthen _ _) as [q' [e|]] eqn:Ea; [discriminate|]. injection E as ->. apply andthen_inv in Ea. destruct Ea as (p1 & E1 & E2).
    apply store_svd_inv in E1. destruct E1 as (s' & _ & ->). eexists. split; [|exact E2]. reflexivity.
Qed.
Lemma rank_nonneg c s : (forall z, c = CNum z -> (0 <= z)%Z) -> (0 <= rank_of c s)%Z.
Proof. destruct c; cbn; intros H; try lia. now apply H. Qed.
Lemma dimensioned_keeps X c q s n m : dimensioned X c q -> stores q s n m -> (forall z, c = CNum z -> (0 <= z)%Z) ->
  tot2 s <> 0%R /\ let r := Nat.min (Z.to_nat (rank_of c s)) m in keeps q r /\ p_cum q = Some (kept s r) /\ p_res q = Some (1 - kept s r)%R.
Proof.
  intros Hd (L & Hs & HL & HLm & Hn) Hc. destruct (dimensioned_inv X c q Hd) as (p & <- & E). destruct (from_criterion_inv p q E) as (s' & Es & Es' & El & Ht & Er).
  rewrite Hs in Es'. injection Es' as <-. split; [exact Ht|]. intros r. rewrite HL in El. symmetry in El. pose proof (ncols_is_mat n m L HLm Hn) as Hnc. pose proof (is_mat_len _ _ _ HLm) as Hlen.
  destruct (set_r_fitted _ p s L Es El (rank_nonneg _ s Hc) ltac:(lia) q None Er Ht) as (_ & _ & _ & F1 & F2 & F3 & _ & F4 & _). rewrite Hnc in *. fold r in F1, F2, F3, F4.
  split; [|auto]. exists L. repeat split; auto. { apply F4. exact (proj2 HLm). } { rewrite Hnc. unfold r. lia. }
Qed.

Lemma C13_num X z q s n m : dimensioned X (CNum z) q -> stores q s n m -> (0 <= z)%Z -> keeps q (Nat.min (Z.to_nat z) m).
Proof. intros Hd Hs Hz. destruct (dimensioned_keeps X _ q s n m Hd Hs) as (_ & H & _). { intros z' E. injection E as <-. exact Hz. } exact H. Qed.
Lemma C13_cum X k q s n m : dimensioned X (CCum k) q -> stores q s n m -> 1 <= m <= length s ->
  exists r, keeps q r /\ least_upto m (fun j => (k <= kept s j)%R) r.
Proof.
  intros Hd Hs Hm. destruct (dimensioned_keeps X _ q s n m Hd Hs) as (Ht & H & _). { discriminate. } cbn [rank_of] in H. rewrite Nat2Z.id in H. eexists. split; [exact H|].
  unfold searchsorted. eapply least_upto_iff; [|apply least_count; auto]. 2:{ intros x y Hxy. rewrite !rltb_true. lra. }
  intros j Hj. cbv beta. unfold rltb. destruct (Rlt_dec (kept s j) k); split; intros; try discriminate; auto; lra.
Qed.
Lemma C13_res X e q s n m : dimensioned X (CRes e) q -> stores q s n m -> 1 <= m <= length s ->
  exists r, keeps q r /\ least_upto m (fun j => (lost s j < e)%R) r.
Proof.
  intros Hd Hs Hm. destruct (dimensioned_keeps X _ q s n m Hd Hs) as (Ht & H & _). { discriminate. } cbn [rank_of] in H. rewrite Nat2Z.id in H. eexists. split; [exact H|].
  eapply least_upto_iff; [|apply (least_count s (fun x => rleb e (1 - x))); auto]. 2:{ intros x y Hxy. rewrite !rleb_true. lra. }
  intros j Hj. cbv beta. rewrite kept_lost by (auto; lia). unfold rleb. destruct (Rle_dec e (1 - kept s j)); split; intros; try discriminate; auto; lra.
Qed.
Lemma C13_proj X e q s n m : dimensioned X (CProj e) q -> stores q s n m -> 1 <= m <= length s ->
  exists r, keeps q r /\ least_upto m (fun j => (sqrt (lost s j) < e)%R) r.
Proof.
  intros Hd Hs Hm. destruct (dimensioned_keeps X _ q s n m Hd Hs) as (Ht & H & _). { discriminate. } cbn [rank_of] in H. rewrite Nat2Z.id in H. eexists. split; [exact H|].
  eapply least_upto_iff; [|apply (least_count s (fun x => rleb e (sqrt (1 - x)))); auto].
  2:{ intros x y Hxy. rewrite !rleb_true. intros He. eapply Rle_trans; [exact He|]. apply sqrt_le_1_alt. lra. }
  intros j Hj. cbv beta. rewrite kept_lost by (auto; lia). unfold rleb. destruct (Rle_dec e (sqrt (1 - kept s j))); split; intros; try discriminate; auto; lra.
Qed.
Lemma count_decreasing s (g : R -> bool) : decreasing s -> (forall x y, (x <= y)%R -> g x = true -> g y = true) ->
  forall i, i < length s -> (g (vget s i) = true <-> i < countb g s).
Proof.
  intros Hd Hg i Hi. apply (countb_prefix g 0%R s); auto. intros a b Hab Hb. apply Hg. now apply Hd.
Qed.
Lemma C13_sval X e q s n m : dimensioned X (CSval e) q -> stores q s n m -> decreasing s -> m <= length s ->
  exists r, keeps q r /\ forall i, i < m -> ((e <= vget s i)%R <-> i < r).
Proof.
  intros Hd Hs Hdec Hm. destruct (dimensioned_keeps X _ q s n m Hd Hs) as (Ht & H & _). { discriminate. } cbn [rank_of] in H. rewrite Nat2Z.id in H. eexists. split; [exact H|].
  intros i Hi. pose proof (count_decreasing s (fun x => rleb e x) Hdec ltac:(intros x y Hxy; rewrite !rleb_true; lra) i ltac:(lia)) as C. rewrite rleb_true in C. rewrite C. lia.
Qed.
(* the documented rule ("at most"), when the threshold is not hit exactly *)
Lemma C13_res_doc X e q s n m : dimensioned X (CRes e) q -> stores q s n m -> 1 <= m <= length s -> (forall j, lost s j <> e) ->
  exists r, keeps q r /\ least_upto m (fun j => (lost s j <= e)%R) r.
Proof.
  intros Hd Hs Hm Hne. destruct (C13_res X e q s n m Hd Hs Hm) as (r & K & H). exists r. split; auto. eapply least_upto_iff; [|exact H]. intros j Hj. cbv beta. specialize (Hne j). lra.
Qed.
Lemma C13_proj_doc X e q s n m : dimensioned X (CProj e) q -> stores q s n m -> 1 <= m <= length s -> (forall j, sqrt (lost s j) <> e) ->
  exists r, keeps q r /\ least_upto m (fun j => (sqrt (lost s j) <= e)%R) r.
Proof.
  intros Hd Hs Hm Hne. destruct (C13_proj X e q s n m Hd Hs Hm) as (r & K & H). exists r. split; auto. eapply least_upto_iff; [|exact H]. intros j Hj. cbv beta. specialize (Hne j). lra.
Qed.

(* ---- sorting ------------------------------------------------------------------------------------------------- *)
Lemma insert_perm x l : Permutation (insert_desc x l) (x :: l).
Proof. induction l as [|y l IH]; cbn; auto. destruct (rleb y x); auto. rewrite IH. apply perm_swap. Qed.
Lemma sort_perm l : Permutation (sort_desc l) l.
Proof. induction l as [|x l IH]; cbn; auto. rewrite insert_perm. now constructor. Qed.
Fixpoint desc (l : vec) : Prop := match l with [] => True | x :: l' => (forall y, In y l' -> (y <= x)%R) /\ desc l' end.
Lemma insert_sorted x l : desc l -> desc (insert_desc x l).
Proof.
  induction l as [|y l IH]; cbn [insert_desc desc]. { split; auto. now intros y []. } intros [H1 H2]. unfold rleb. destruct (Rle_dec y x) as [Hyx|Hyx].
  - cbn [desc]. repeat split; auto. intros z [<-|Hz]; auto. specialize (H1 z Hz). lra.
  - cbn [desc]. split; auto. intros z Hz. apply (Permutation_in _ (insert_perm x l)) in Hz. destruct Hz as [<-|Hz]; [lra|auto].
Qed.
Lemma sort_sorted l : desc (sort_desc l). Proof. induction l; cbn; auto. now apply insert_sorted. Qed.
Lemma desc_dec l : desc l <-> decreasing l.
Proof.
  split.
  - induction l as [|x l IH]; intros H i j Hij Hj; [cbn in Hj; lia|]. cbn [desc] in H. destruct H as [H1 H2]. destruct i as [|i], j as [|j]; unfold vget; cbn [nth]; try lra; try lia.
    + apply H1. apply nth_In. cbn in Hj. lia.
    + apply (IH H2 i j); cbn in Hj; lia.
  - induction l as [|x l IH]; intros H; cbn; auto. split.
    + intros y Hy. apply (In_nth _ _ 0%R) in Hy. destruct Hy as (j & Hj & <-). apply (H 0 (S j)); cbn; lia.
    + apply IH. intros i j Hij Hj. apply (H (S i) (S j)); cbn; lia.
Qed.
Lemma insert_id x l : (forall y, In y l -> (y <= x)%R) -> insert_desc x l = x :: l.
Proof. destruct l as [|y l]; cbn; auto. intros H. unfold rleb. destruct (Rle_dec y x) as [|N]; auto. exfalso. apply N. auto. Qed.
Lemma sort_id l : decreasing l -> sort_desc l = l.
Proof. rewrite <- desc_dec. induction l as [|x l IH]; cbn; auto. intros [H1 H2]. rewrite IH by auto. now apply insert_id. Qed.
Lemma sort_length l : length (sort_desc l) = length l. Proof. apply Permutation_length, sort_perm. Qed.
Lemma normalized_spec s s' : normalized s = Ok s' -> exists c, c <> 0%R /\ s' = map (fun x => x / c)%R (sort_desc s) /\ vget s' 0 = 1%R /\ c = vget (sort_desc s) 0.
Proof.
  unfold normalized. destruct (sort_desc s) as [|c l] eqn:E; [discriminate|]. destruct (Req_EM_T c 0) as [|Hc]; [discriminate|]. intros H. injection H as <-.
  exists c. repeat split; auto. cbn. unfold Rdiv. now apply Rinv_r.
Qed.
Lemma normalized_dec s s' : normalized s = Ok s' -> (forall x, In x s -> (0 <= x)%R) -> decreasing s' /\ length s' = length s.
Proof.
  intros H Hp. destruct (normalized_spec s s' H) as (c & Hc & -> & _ & Ec). rewrite map_length, sort_length. split; auto. intros i j Hij Hj. rewrite map_length in Hj.
  rewrite !vget_map by (rewrite ?sort_length in *; lia).
  assert (0 < c)%R. { assert (0 <= c)%R. { apply Hp. rewrite Ec. eapply Permutation_in; [apply sort_perm|]. apply nth_In. lia. } lra. }
  unfold Rdiv. apply Rmult_le_compat_r. { left. now apply Rinv_0_lt_compat. } apply (proj1 (desc_dec (sort_desc s)) (sort_sorted s)); lia.
Qed.

(* ---- the functions ----------------------------------------------------------------------------------------------- *)
Lemma C13_decay s t r : svdval_decay s t = Ok (Some r) -> (forall x, In x s -> (0 <= x)%R) ->
  exists s', normalized s = Ok s' /\ decreasing s' /\ forall i, i < length s -> ((t < vget s' i)%R <-> i < r).
Proof.
  unfold svdval_decay. destruct (normalized s) as [s'|] eqn:E; [|discriminate]. cbn [bind]. unfold thresholded. destruct (Req_EM_T t 0); [discriminate|]. intros H Hp. injection H as <-.
  exists s'. destruct (normalized_dec s s' E Hp) as [Hd Hl]. split; [auto|split; [auto|]]. intros i Hi.
  rewrite <- (count_decreasing s' (fun x => rltb t x) Hd) by (try lia; intros x y Hxy; rewrite !rltb_true; lra). now rewrite rltb_true.
Qed.
Lemma sorted_energy_inv s e : sorted_energy s = Ok e -> tot2 (sort_desc s) <> 0%R /\ e = energy (sort_desc s).
Proof. unfold sorted_energy. rewrite lsum_sqv. destruct (Req_EM_T _ _); [discriminate|]. intros H. injection H as <-. auto. Qed.
Lemma countb_cons {A} (f : A -> bool) x l : countb f (x :: l) = (if f x then 1 else 0) + countb f l.
Proof. unfold countb. cbn. destruct (f x); reflexivity. Qed.
Lemma countb_map {A B} (g : A -> B) (f : B -> bool) l : countb f (map g l) = countb (fun x => f (g x)) l.
Proof. unfold countb. induction l as [|x l IH]; cbn; auto. destruct (f (g x)); cbn; auto. Qed.
(* count over 0-th, 1st, ... energies *)
Lemma count_from_zero s (g : R -> bool) : tot2 s <> 0%R -> (forall x y, (x <= y)%R -> g y = true -> g x = true) ->
  forall j, j <= length s -> (g (kept s j) = true <-> j < (if g 0%R then 1 else 0) + countb g (energy s)).
Proof.
  intros Ht Hg j Hj. assert (C0 : g 0%R = false -> countb g (energy s) = 0).
  { intros E. apply countb_none. intros x Hx. apply (In_nth _ _ 0%R) in Hx. destruct Hx as (i & Hi & <-). rewrite energy_length in Hi.
    change (nth i (energy s) 0%R) with (vget (energy s) i). rewrite energy_nth by auto. destruct (g (kept s (S i))) eqn:Ei; auto. rewrite <- E. rewrite <- (kept_0 s). symmetry.
    apply (Hg _ (kept s (S i))); auto. apply kept_mono; auto. lia. }
  destruct j as [|j].
  - rewrite kept_0. destruct (g 0%R); [split; intros; auto; lia|]. rewrite C0 by auto. split; [discriminate|lia].
  - rewrite (count_energy s g Ht Hg (S j)) by lia. destruct (g 0%R) eqn:E; [lia|]. rewrite C0; auto. lia.
Qed.
Lemma C13_cum_fn s t r : cumulative_energy s t = Ok (Some r) -> (t <= 1)%R -> least (fun j => (t <= kept (sort_desc s) j)%R) r /\ r <= length s.
Proof.
  unfold cumulative_energy. destruct (sorted_energy s) as [e|] eqn:E; [|discriminate]. cbn [bind]. unfold thresholded. destruct (Req_EM_T t 0); [discriminate|]. intros H Ht. injection H as <-.
  destruct (sorted_energy_inv s e E) as [Htot ->]. set (s' := sort_desc s) in *. unfold searchsorted. rewrite countb_cons.
  pose proof (count_from_zero s' (fun y => rltb y t) Htot ltac:(intros x y Hxy; rewrite !rltb_true; lra)) as C. cbv beta in C. set (r := _ + _) in *.
  assert (Hr : r <= length s'). { destruct (Nat.le_gt_cases r (length s')) as [|H]; auto. exfalso. apply C in H; auto. rewrite rltb_true, kept_all in H by auto. lra. }
  split; [|unfold s' in Hr; now rewrite sort_length in Hr]. split.
  - destruct (Rle_dec t (kept s' r)) as [|N]; auto. exfalso. apply Rnot_le_lt in N. apply rltb_true in N. apply C in N; lia.
  - intros j Hj. assert (Hj' : j <= length s') by lia. apply (proj2 (C j Hj')) in Hj. apply rltb_true in Hj. lra.
Qed.
Lemma C13_res_fn s t r : residual_energy s t false = Ok (Some r) -> (0 <= t)%R -> least (fun j => (lost (sort_desc s) j <= t)%R) r /\ r <= length s.
Proof.
  unfold residual_energy. destruct (sorted_energy s) as [e|] eqn:E; [|discriminate]. cbn [bind]. unfold thresholded. destruct (Req_EM_T t 0); [discriminate|]. intros H Ht. injection H as <-.
  destruct (sorted_energy_inv s e E) as [Htot ->]. set (s' := sort_desc s) in *. rewrite countb_cons, countb_map.
  pose proof (count_from_zero s' (fun y => rltb t (1 - y)) Htot ltac:(intros x y Hxy; rewrite !rltb_true; lra)) as C. cbv beta in C. rewrite Rminus_0_r in C. set (r := _ + _) in *.
  assert (Hr : r <= length s'). { destruct (Nat.le_gt_cases r (length s')) as [|H]; auto. exfalso. apply C in H; auto. rewrite rltb_true, kept_all in H by auto. lra. }
  split; [|unfold s' in Hr; now rewrite sort_length in Hr]. split.
  - rewrite kept_lost by auto. destruct (Rle_dec (1 - kept s' r) t) as [|N]; auto. exfalso. apply Rnot_le_lt in N. apply rltb_true in N. apply C in N; lia.
  - intros j Hj. rewrite kept_lost by (auto; lia). assert (Hj' : j <= length s') by lia. apply (proj2 (C j Hj')) in Hj. apply rltb_true in Hj. lra.
Qed.
Lemma C13_proj_fn s t r : residual_energy s t true = Ok (Some r) -> (0 <= t)%R -> least (fun j => (sqrt (lost (sort_desc s) j) <= t)%R) r /\ r <= length s.
Proof.
  unfold residual_energy. destruct (sorted_energy s) as [e|] eqn:E; [|discriminate]. cbn [bind]. unfold thresholded. destruct (Req_EM_T t 0); [discriminate|]. intros H Ht. injection H as <-.
  destruct (sorted_energy_inv s e E) as [Htot ->]. set (s' := sort_desc s) in *. rewrite countb_cons, !countb_map.
  pose proof (count_from_zero s' (fun y => rltb t (sqrt (1 - y))) Htot) as C. cbv beta in C. rewrite Rminus_0_r in C. specialize (C ltac:(intros x y Hxy; rewrite !rltb_true; intros Hl; eapply Rlt_le_trans; [exact Hl|]; apply sqrt_le_1_alt; lra)). set (r := _ + _) in *.
  assert (Hr : r <= length s'). { destruct (Nat.le_gt_cases r (length s')) as [|H]; auto. exfalso. apply C in H; auto. rewrite rltb_true, kept_all in H by auto. rewrite Rminus_diag_eq, sqrt_0 in H by reflexivity. lra. }
  split; [|unfold s' in Hr; now rewrite sort_length in Hr]. split.
  - rewrite kept_lost by auto. destruct (Rle_dec (sqrt (1 - kept s' r)) t) as [|N]; auto. exfalso. apply Rnot_le_lt in N. apply rltb_true in N. apply C in N; lia.
  - intros j Hj. rewrite kept_lost by (auto; lia). assert (Hj' : j <= length s') by lia. apply (proj2 (C j Hj')) in Hj. apply rltb_true in Hj. lra.
Qed.

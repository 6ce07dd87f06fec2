(* PodFinal.v -- proofs about PODBasis: when the dimension can be set, agreement of class and functions, histories. *)
From Coq Require Import ZArith Lia Lra List Permutation.
From Verif Require Import LinAlg MatAlg EckartYoung BasisProofs PodRank.
From Verif Require Export SpecBasis.
#[local] Open Scope nat_scope.

Lemma not_orthogonal_total n r W A : 0 < n -> is_mat n r A -> ok_weight n W -> exists w, not_orthogonal A W = Ok w.
Proof.
  intros Hn HA HW. destruct (Nat.eq_dec r 0) as [->|Hr].
  - unfold not_orthogonal, gram. destruct (wmul_ok n 0 W (M A) Hn HW HA) as (wa & E1 & S1 & K1 & _). rewrite E1. cbn [bind]. destruct wa as [v|B]; [now cbn in K1|].
    cbn [dot_at]. cbn [shaped] in S1. unfold nrows. rewrite (is_mat_len _ _ _ S1), (is_mat_len _ _ _ HA), Nat.eqb_refl. cbn [bind]. eauto.
  - destruct (not_orthogonal_iff n r W A Hn ltac:(lia) HA HW) as (w & E & _). eauto.
Qed.
Lemma is_mat_firstn n m r A : is_mat n m A -> r <= m -> is_mat n r (map (firstn r) A).
Proof.
  intros [H1 H2] Hr. split. { now rewrite map_length. } apply Forall_forall. intros row Hin. apply in_map_iff in Hin. destruct Hin as (x & <- & Hx).
  rewrite Forall_forall in H2. specialize (H2 x Hx). rewrite firstn_length. lia.
Qed.
Lemma set_r_ok z p s L n m : p_svals p = Some s -> p_left p = Some L -> is_mat n m L -> 0 < n -> ok_weight n (p_weights p) -> (0 <= z)%Z -> tot2 s <> 0%R ->
  exists q, set_r z p = (q, None).
Proof.
  intros Hs HL HLm Hn HW Hz Ht. destruct (set_r z p) as [q e] eqn:E. destruct (set_r_fitted z p s L Hs HL Hz ltac:(rewrite (is_mat_len _ _ _ HLm); auto) q e E Ht) as (_ & _ & _ & F & _).
  pose proof (ncols_is_mat n m L HLm Hn) as Hnc. rewrite Hnc in F.
  unfold set_r in E. rewrite Hs, HL in E. cbv zeta in E. rewrite lsum_sqv in E. destruct (Req_EM_T _ _); [contradiction|]. apply pair_equal_spec in E. destruct E as [<- E].
  cbn [p_entries pod_with_entries] in F. injection F as F. rewrite F in E. destruct (not_orthogonal_total n (Nat.min (Z.to_nat z) m) (p_weights p) (map (firstn (Nat.min (Z.to_nat z) m)) L) Hn) as (w & Ew); auto.
  { apply (is_mat_firstn n m); auto. lia. } rewrite Ew in E. subst e. eauto.
Qed.
Lemma tot2_first s : s <> [] -> vget s 0 <> 0%R -> tot2 s <> 0%R.
Proof.
  intros Hs H0 E. unfold tot2 in E. destruct s as [|x s]; [contradiction|]. cbn [length] in E. rewrite bsum_S_l in E.
  assert (0 <= bsum (length s) (fun i => Rsqr (vget (x :: s) (S i))))%R by (apply bsum_nonneg; intros; apply Rle_0_sqr).
  apply Rlt_0_sqr in H0. lra.
Qed.
Lemma normalized_tot s s' : normalized s = Ok s' -> tot2 s' <> 0%R.
Proof.
  intros H. destruct (normalized_spec s s' H) as (c & _ & E & H1 & _). apply tot2_first.
  - intros ->. cbn in H1. lra.
  - rewrite H1. lra.
Qed.
(* from_svd() returns whenever the leading singular value is not zero *)
Lemma from_svd_ok X L s Rt a c nm n m s' : is_mat n m L -> 0 < n -> normalized s = Ok s' -> pick a = Ok c -> (forall z, c = CNum z -> (0 <= z)%Z) ->
  exists q, from_svd X L s Rt a None None nm = Ok q /\ stores q s' n m /\ dimensioned X c q.
Proof.
  intros HL Hn Hs Hc Hz. assert (exists q, from_svd X L s Rt a None None nm = Ok q /\ stores q s' n m) as (q & E & Hq).
  { unfold from_svd. rewrite Hc. unfold pod_init. rewrite Hc. cbn [bind]. unfold store_svd. rewrite Hs. cbn [andthen]. unfold from_criterion. cbn [p_svals pod_with_svd]. rewrite lsum_sqv.
    destruct (Req_EM_T (tot2 s') 0) as [Z|Z]; [now apply normalized_tot in Hs|].
    set (p := pod_with_svd L (Some s') Rt _). cbn [p_crit p]. destruct (set_r_ok (rank_of c s') p s' L n m eq_refl eq_refl HL Hn I (rank_nonneg _ _ Hz) Z) as (q & Eq).
    replace (p_crit p) with c by reflexivity. rewrite Eq. exists q. split; auto. exists L. destruct (set_r_keeps _ _ _ _ Eq) as (K1 & K2 & _). rewrite K1, K2. auto. }
  exists q. repeat split; auto. right. right. exists L, s, Rt, a, None, None, nm. auto.
Qed.
(* set_dimension() returns on any fitted basis *)
Lemma set_dimension_ok X a c p s n m : stores p s n m -> ok_weight n (p_weights p) -> tot2 s <> 0%R -> pick a = Ok c -> (forall z, c = CNum z -> (0 <= z)%Z) ->
  exists q, set_dimension a p = (q, None) /\ stores q s n m /\ dimensioned X c q.
Proof.
  intros (L & Hs & HL & HLm & Hn) HW Ht Hc Hz. unfold set_dimension. rewrite Hc, Hs. unfold from_criterion. cbn [p_svals pod_with_crit p_crit]. rewrite Hs, lsum_sqv.
  destruct (Req_EM_T (tot2 s) 0); [contradiction|]. destruct (set_r_ok (rank_of c s) (pod_with_crit c p) s L n m Hs HL HLm Hn HW (rank_nonneg _ _ Hz) Ht) as (q & E).
  exists q. split; auto. destruct (set_r_keeps _ _ _ _ E) as (K1 & K2 & _). split. { exists L. rewrite K1, K2. auto. }
  right. left. exists p, a. rewrite Hs. repeat split; auto. discriminate. unfold set_dimension. rewrite Hc, Hs. unfold from_criterion. cbn [p_svals pod_with_crit p_crit]. rewrite Hs, lsum_sqv.
  destruct (Req_EM_T (tot2 s) 0); [contradiction|]. exact E.
Qed.

(* ---- class and functions agree --------------------------------------------------------------------------- *)
Lemma least_least_upto P r m : least P r -> ~ P 0 -> r <= m -> least_upto m P r.
Proof.
  intros [H1 H2] H0 Hr. destruct r as [|r]; [contradiction|]. repeat split; auto; try lia. intros j Hj. apply H2. lia.
Qed.
Lemma C13_agree_cum X k q s n r : dimensioned X (CCum k) q -> stores q s n (length s) -> decreasing s -> (0 < k <= 1)%R ->
  cumulative_energy s k = Ok (Some r) -> keeps q r.
Proof.
  intros Hd Hs Hdec Hk E. destruct (C13_cum_fn s k r E ltac:(lra)) as [HL Hr]. rewrite sort_id in HL by auto.
  assert (H0 : ~ (k <= kept s 0)%R) by (rewrite kept_0; lra). pose proof (least_least_upto _ _ _ HL H0 Hr) as HU. destruct (C13_cum X k q s n (length s) Hd Hs ltac:(destruct HU; lia)) as (r' & K & H).
  now rewrite (least_upto_unique _ _ _ _ HU H).
Qed.
Lemma lost_0 s : tot2 s <> 0%R -> lost s 0 = 1%R.
Proof. intros H. rewrite kept_lost by (auto; lia). rewrite kept_0. lra. Qed.
Lemma C13_agree_res X e q s n r : dimensioned X (CRes e) q -> stores q s n (length s) -> decreasing s -> (0 < e < 1)%R -> (forall j, lost s j <> e) ->
  residual_energy s e false = Ok (Some r) -> keeps q r.
Proof.
  intros Hd Hs Hdec Hk Hne E. destruct (C13_res_fn s e r E ltac:(lra)) as [HL Hr]. rewrite sort_id in HL by auto.
  destruct (dimensioned_keeps X _ q s n (length s) Hd Hs ltac:(discriminate)) as (Ht & _).
  assert (H0 : ~ (lost s 0 <= e)%R) by (rewrite lost_0 by auto; lra). pose proof (least_least_upto _ _ _ HL H0 Hr) as HU.
  destruct (C13_res_doc X e q s n (length s) Hd Hs ltac:(destruct HU; lia) Hne) as (r' & K & H).
  now rewrite (least_upto_unique _ _ _ _ HU H).
Qed.
Lemma C13_agree_proj X e q s n r : dimensioned X (CProj e) q -> stores q s n (length s) -> decreasing s -> (0 < e < 1)%R -> (forall j, sqrt (lost s j) <> e) ->
  residual_energy s e true = Ok (Some r) -> keeps q r.
Proof.
  intros Hd Hs Hdec Hk Hne E. destruct (C13_proj_fn s e r E ltac:(lra)) as [HL Hr]. rewrite sort_id in HL by auto.
  destruct (dimensioned_keeps X _ q s n (length s) Hd Hs ltac:(discriminate)) as (Ht & _).
  assert (H0 : ~ (sqrt (lost s 0) <= e)%R) by (rewrite lost_0, sqrt_1 by auto; lra). pose proof (least_least_upto _ _ _ HL H0 Hr) as HU.
  destruct (C13_proj_doc X e q s n (length s) Hd Hs ltac:(destruct HU; lia) Hne) as (r' & K & H).
  now rewrite (least_upto_unique _ _ _ _ HU H).
Qed.
Lemma C13_agree_sval X e q s n r : dimensioned X (CSval e) q -> stores q s n (length s) -> decreasing s -> (forall x, In x s -> (0 <= x)%R /\ x <> e) -> vget s 0 = 1%R ->
  svdval_decay s e = Ok (Some r) -> keeps q r.
Proof.
  intros Hd Hs Hdec Hne H1 E. destruct (C13_sval X e q s n (length s) Hd Hs Hdec (le_n _)) as (r' & K & H).
  unfold svdval_decay in E. destruct (normalized s) as [s'|] eqn:En; [|discriminate]. cbn [bind] in E. unfold thresholded in E. destruct (Req_EM_T e 0); [discriminate|]. injection E as <-.
  destruct (normalized_spec s s' En) as (c & Hc & -> & _ & Ec). rewrite sort_id in * by auto. rewrite Ec, H1 in *. replace (map (fun x => x / 1)%R s) with s in *.
  2:{ symmetry. rewrite <- (map_id s) at 2. apply map_ext. intros. field. }
  assert (Hr' : r' <= length s). { destruct K as (L & HL & _ & HLe & _). destruct Hs as (L' & _ & HL' & HLm & Hn). rewrite HL in HL'. injection HL' as ->. rewrite (ncols_is_mat _ _ _ HLm Hn) in HLe. exact HLe. }
  pose proof (countb_le (fun x => rltb e x) s) as Hc'. set (r := countb (fun x => rltb e x) s) in *.
  assert (Hr : forall i, i < length s -> ((e < vget s i)%R <-> i < r)). { intros i Hi. unfold r. rewrite <- (count_decreasing s (fun x => rltb e x) Hdec) by (auto; intros x y Hxy; rewrite !rltb_true; lra). now rewrite rltb_true. }
  assert (r = r'); [|now subst]. destruct (Nat.lt_trichotomy r r') as [C|[C|C]]; auto; exfalso.
  - assert (Hi : r < length s) by lia. apply (H r Hi) in C. destruct (Hne (vget s r)) as [_ N]. { now apply nth_In. } assert (e < vget s r)%R by (destruct C; auto; congruence). apply Hr in H0; auto. lia.
  - assert (Hi : r' < length s) by lia. apply (Hr r' Hi) in C. assert (e <= vget s r')%R by lra. apply H in H0; auto. lia.
Qed.

(* the threshold hit exactly: class and documentation (and function) differ *)
Definition s2 : vec := [1; / 2]%R.
Lemma s2_dec : decreasing s2.
Proof. intros i j Hij Hj. cbn in Hj. destruct i as [|[|i]], j as [|[|j]]; unfold vget; cbn; try lra; lia. Qed.
Lemma s2_norm : normalized s2 = Ok s2.
Proof.
  unfold normalized. rewrite sort_id by apply s2_dec. unfold s2. destruct (Req_EM_T 1 0); [lra|]. cbn. f_equal. f_equal; [field|]. f_equal. field.
Qed.
Lemma s2_tot : tot2 s2 = (5 / 4)%R. Proof. unfold tot2, s2. cbn. unfold vget, Rsqr; cbn. field. Qed.
Lemma s2_lost1 : lost s2 1 = (1 / 5)%R.
Proof. unfold lost. rewrite s2_tot. cbn. unfold vget, Rsqr; cbn. field. Qed.
Lemma s2_lost2 : lost s2 2 = 0%R. Proof. unfold lost. cbn. unfold Rdiv. ring. Qed.
Lemma C13_res_exact_refuted : exists X q, dimensioned X (CRes (1 / 5)) q /\ stores q s2 2 2 /\ keeps q 2 /\ (lost s2 1 <= 1 / 5)%R /\ residual_energy s2 (1 / 5) false = Ok (Some 1).
Proof.
  set (X := {| x_svd := fun _ => Err OtherError; x_rsvd := fun _ _ => Err OtherError; x_eigh := fun _ => Err OtherError; x_sqrtm := fun _ => Err OtherError; x_chof := fun _ => Err OtherError; x_chos := fun _ _ => Err OtherError |}).
  destruct (from_svd_ok X (eye 2) s2 None (by_res (1 / 5)) (CRes (1 / 5)) None 2 2 s2 (is_mat_eye 2) ltac:(lia) s2_norm eq_refl ltac:(discriminate)) as (q & _ & Hs & Hd).
  exists X, q. split; [auto|]. split; [auto|]. split.
  - destruct (C13_res X _ q s2 2 2 Hd Hs ltac:(cbn; lia)) as (r & K & H1 & H2 & H3). assert (r = 2); [|now subst].
    destruct H3 as [H3|]; auto. assert (r = 1 \/ r = 2) as [->|] by lia; auto. rewrite s2_lost1 in H3. lra.
  - rewrite s2_lost1. split; [lra|]. destruct (residual_energy s2 (1 / 5) false) as [o|e] eqn:E.
    + destruct o as [r|].
      * destruct (C13_res_fn s2 (1/5) r E ltac:(lra)) as [[H1 H2] H3]. rewrite sort_id in * by apply s2_dec. f_equal. f_equal. destruct r as [|[|r]]; auto.
        { rewrite lost_0 in H1 by (rewrite s2_tot; lra). lra. } exfalso. apply (H2 1); [lia|]. rewrite s2_lost1. lra.
      * exfalso. unfold residual_energy in E. destruct (sorted_energy s2); [|discriminate]. cbn [bind] in E. unfold thresholded in E. destruct (Req_EM_T (1/5) 0); [lra|discriminate].
    + exfalso. unfold residual_energy, sorted_energy in E. rewrite lsum_sqv, sort_id in E by apply s2_dec. rewrite s2_tot in E. destruct (Req_EM_T (5/4) 0); [lra|]. discriminate.
Qed.
(* a threshold above one keeps no vector at all *)
Lemma C13_sval_empty_refuted : exists X q, dimensioned X (CSval 2) q /\ stores q s2 2 2 /\ keeps q 0.
Proof.
  set (X := {| x_svd := fun _ => Err OtherError; x_rsvd := fun _ _ => Err OtherError; x_eigh := fun _ => Err OtherError; x_sqrtm := fun _ => Err OtherError; x_chof := fun _ => Err OtherError; x_chos := fun _ _ => Err OtherError |}).
  destruct (from_svd_ok X (eye 2) s2 None (by_sval 2) (CSval 2) None 2 2 s2 (is_mat_eye 2) ltac:(lia) s2_norm eq_refl ltac:(discriminate)) as (q & _ & Hs & Hd).
  exists X, q. split; [auto|]. split; [auto|]. destruct (C13_sval X _ q s2 2 2 Hd Hs s2_dec ltac:(cbn; lia)) as (r & K & H). destruct r as [|r]; auto. exfalso.
  specialize (H 0 ltac:(lia)). unfold vget, s2 in H; cbn in H. destruct H as [_ H]. specialize (H ltac:(lia)). lra.
Qed.

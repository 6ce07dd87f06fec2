(* PodError.v -- the projection error of a PODBasis on its training snapshots; the method of snapshots. *)
From Coq Require Import ZArith Lia Lra List.
From Verif Require Import LinAlg MatAlg EckartYoung LinSys BasisProofs PodRank PodFinal PodHist.
From Verif Require Export SpecBasis.
#[local] Open Scope nat_scope.

Lemma wip_sum_r n W x m (c : nat -> R) (phi : nat -> nat -> R) : wip n W x (fun t => bsum m (fun i => c i * phi i t)%R) = bsum m (fun i => c i * wip n W x (phi i))%R.
Proof.
  unfold wip. transitivity (bsum n (fun i => bsum m (fun b => bsum n (fun j => c b * (x i * wget W i j * phi b j))%R))).
  { apply bsum_ext. intros i Hi. rewrite <- bsum_swap. apply bsum_ext. intros j Hj. rewrite <- bsum_scal_l. apply bsum_ext. intros. ring. }
  rewrite bsum_swap. apply bsum_ext. intros b Hb. rewrite <- bsum_scal_l. apply bsum_ext. intros i Hi. now rewrite bsum_scal_l.
Qed.
Lemma wip_sum_l n W y m (c : nat -> R) (phi : nat -> nat -> R) : wip n W (fun t => bsum m (fun i => c i * phi i t)%R) y = bsum m (fun i => c i * wip n W (phi i) y)%R.
Proof.
  unfold wip. transitivity (bsum n (fun i => bsum m (fun b => bsum n (fun j => c b * (phi b i * wget W i j * y j))%R))).
  { apply bsum_ext. intros i Hi. rewrite <- bsum_swap. apply bsum_ext. intros j Hj. rewrite <- !bsum_scal_r. apply bsum_ext. intros. ring. }
  rewrite bsum_swap. apply bsum_ext. intros b Hb. rewrite <- bsum_scal_l. apply bsum_ext. intros i Hi. now rewrite bsum_scal_l.
Qed.
Lemma wip_onf n W m c phi : (forall i j, i < m -> j < m -> wip n W (phi i) (phi j) = dlt i j) ->
  wip n W (fun t => bsum m (fun i => c i * phi i t)%R) (fun t => bsum m (fun i => c i * phi i t)%R) = bsum m (fun i => c i * c i)%R.
Proof.
  intros H. rewrite wip_sum_l. apply bsum_ext. intros i Hi. f_equal. rewrite wip_sum_r. rewrite <- (bsum_dlt' m i c Hi). apply bsum_ext. intros j Hj. rewrite H by auto. ring.
Qed.
(* the residual of the best approximation by the first r left vectors *)
Lemma wsvd_residual n k p W Q L s Rt r : wsvd n k p W Q L s Rt -> r <= p ->
  (forall t l, t < n -> l < k -> (mget Q t l - span r L (fun b => wip n W (fun i => mget L i b) (fun i => mget Q i l)) t)%R = bsum (p - r) (fun i => vget s (r + i) * mget Rt (r + i) l * mget L t (r + i))%R) /\
  bsum k (fun l => wip n W (fun t => mget Q t l - span r L (fun b => wip n W (fun i => mget L i b) (fun i => mget Q i l)) t)%R
                           (fun t => mget Q t l - span r L (fun b => wip n W (fun i => mget L i b) (fun i => mget Q i l)) t)%R) = bsum (p - r) (fun i => Rsqr (vget s (r + i))).
Proof.
  intros (HL & Hs & HR & Ho & Hro & Hpos & Hdec & HQ) Hr.
  assert (D : forall t l, t < n -> l < k -> (mget Q t l - span r L (fun b => wip n W (fun i => mget L i b) (fun i => mget Q i l)) t)%R = bsum (p - r) (fun i => vget s (r + i) * mget Rt (r + i) l * mget L t (r + i))%R).
  { intros t l Ht Hl. assert (C : forall b, b < p -> wip n W (fun i => mget L i b) (fun i => mget Q i l) = (vget s b * mget Rt b l)%R).
    { intros b Hb. rewrite (wip_ext n W _ (fun i => mget L i b) _ (span p L (fun i => vget s i * mget Rt i l)%R)); auto.
      - now apply (wip_span n p W L b (fun i => vget s i * mget Rt i l)%R).
      - intros i Hi. rewrite HQ by auto. unfold span. apply bsum_ext. intros. ring. }
    rewrite HQ by auto. replace p with (r + (p - r)) at 1 by lia. rewrite bsum_split. unfold span.
    rewrite (bsum_ext r (fun b => mget L t b * wip n W (fun i => mget L i b) (fun i => mget Q i l))%R (fun i => vget s i * (mget L t i * mget Rt i l))%R) by (intros b Hb; rewrite C by lia; ring).
    rewrite (bsum_ext (p - r) (fun i => vget s (r + i) * (mget L t (r + i) * mget Rt (r + i) l))%R (fun i => vget s (r + i) * mget Rt (r + i) l * mget L t (r + i))%R) by (intros; ring). ring. }
  split; [exact D|].
  transitivity (bsum k (fun l => bsum (p - r) (fun i => (vget s (r + i) * mget Rt (r + i) l) * (vget s (r + i) * mget Rt (r + i) l))%R)).
  { apply bsum_ext. intros l Hl.
    rewrite (wip_ext n W _ (fun t => bsum (p - r) (fun i => (vget s (r + i) * mget Rt (r + i) l) * mget L t (r + i))%R) _ (fun t => bsum (p - r) (fun i => (vget s (r + i) * mget Rt (r + i) l) * mget L t (r + i))%R)) by (intros; now apply D).
    apply (wip_onf n W (p - r) (fun i => vget s (r + i) * mget Rt (r + i) l)%R (fun i t => mget L t (r + i))).
    intros i j Hi Hj. rewrite (Ho (r + i) (r + j)) by lia. unfold dlt. destruct (Nat.eqb_spec i j), (Nat.eqb_spec (r + i) (r + j)); auto; lia. }
  rewrite bsum_swap. apply bsum_ext. intros i Hi. unfold Rsqr.
  transitivity (bsum k (fun l => (vget s (r + i) * vget s (r + i)) * (mget Rt (r + i) l * mget Rt (r + i) l))%R). { apply bsum_ext. intros. ring. }
  rewrite bsum_scal_l, Hro by lia. rewrite Nat.eqb_refl. ring.
Qed.
Lemma wsvd_total n k p W Q L s Rt : wsvd n k p W Q L s Rt -> wnorm2 n k W Q = tot2 s.
Proof.
  intros H. destruct (wsvd_residual n k p W Q L s Rt 0 H ltac:(lia)) as [_ E]. destruct H as (_ & Hs & _). unfold wnorm2, tot2. rewrite Hs. rewrite Nat.sub_0_r in E. cbn [plus] in E.
  rewrite <- E. apply bsum_ext. intros l Hl. unfold span. cbn [bsum]. apply wip_ext; intros; ring.
Qed.
(* the stored normalized singular values have the same energies *)
Lemma lost_scale s c r : c <> 0%R -> tot2 s <> 0%R -> r <= length s -> lost (map (fun x => x / c)%R s) r = lost s r.
Proof.
  intros Hc Ht Hr. rewrite !kept_lost; auto; try (rewrite map_length; auto). { now rewrite kept_scale. }
  rewrite tot2_scale by auto. intros E. apply Ht. apply (f_equal (fun x => x * (c * c))%R) in E. unfold Rdiv in E. rewrite Rmult_assoc, Rinv_l in E by (now apply Rmult_integral_contrapositive). lra.
Qed.
Lemma normalized_lost s s' r : decreasing s -> normalized s = Ok s' -> r <= length s -> lost s' r = lost s r /\ tot2 s <> 0%R.
Proof.
  intros Hd H Hr. pose proof (normalized_tot s s' H) as Ht'. destruct (normalized_spec s s' H) as (c & Hc & -> & _ & _). rewrite sort_id in * by auto.
  assert (Ht : tot2 s <> 0%R). { intros E. apply Ht'. rewrite tot2_scale, E by auto. unfold Rdiv. ring. } split; auto. now apply lost_scale.
Qed.

(* the state of an object whose last fit saw the SVD (L, s, Rt) *)
Lemma after_fit X h st g p0 q Q n k p L s Rt W : pod_run X (h ++ [OFit st] ++ g) p0 = Some q -> existsb is_fit g = false -> snap_mat st = Ok Q -> is_mat n k Q -> 0 < n -> 0 < k ->
  p_weights p0 = W -> ok_weight n W -> inv p0 -> Forall proper_op (h ++ [OFit st] ++ g) -> rectangular X p0 ->
  pod_svd X p0 (keep_of p0 Q) Q = Ok (L, s, Rt) -> wsvd n k p W Q L s Rt ->
  exists r s', keeps q r /\ p_svals q = Some s' /\ p_res q = Some (lost s' r) /\ lost s' r = lost s r /\ r <= p /\ tot2 s <> 0%R /\
    p_left q = Some (mcols 0 (keep_of p0 Q) L) /\ p_weights q = W.
Proof.
  intros E Hg Hst HQ Hn Hk HW0 HW Hi Ho HR Hv Hw. assert (Hrun := E). apply run_app in E. destruct E as (a & A & E). apply run_app in E. destruct E as (b & B & E).
  pose proof (run_static _ _ _ _ A) as Sa. pose proof (run_static _ _ _ _ B) as Sb. destruct (nofit_svd X g b q Hg E) as [Sq Sv].
  destruct (run_inv X _ p0 q HR Ho Hi Hrun) as [_ G]. destruct G as (s1 & n1 & m1 & r & G1 & G2 & G3 & G4 & G5 & G6). { left. rewrite !existsb_app. cbn. now rewrite Bool.orb_true_r. }
  cbn [pod_run pod_step] in B. destruct (pod_fit X st a) as [b' [|]] eqn:F; [discriminate|]. injection B as ->.
  assert (Hva : pod_svd X a (keep_of a Q) Q = Ok (L, s, Rt)). { rewrite <- Hv. unfold pod_svd, engine, keep_of. injection Sa as _ -> -> -> ->. reflexivity. }
  assert (Hke : keep_of a Q = keep_of p0 Q). { unfold keep_of. injection Sa as _ -> _ _ _. reflexivity. }
  unfold pod_fit in F. rewrite Hst in F. cbv zeta in F. fold (keep_of a Q) in F. rewrite Hva in F. apply andthen_inv in F. destruct F as (x & F1 & F2). apply store_svd_inv in F1. destruct F1 as (s' & Ns & ->).
  destruct (from_criterion_keeps _ _ _ F2) as (K1 & K2 & _). cbn [p_svals p_left pod_with_svd] in K1, K2. specialize (Sv ltac:(rewrite K1; discriminate)). injection Sv as _ Sv1 Sv2 _. rewrite K2, Hke in Sv1. rewrite K1 in Sv2.
  destruct Hw as (HL & Hs & _ & _ & _ & _ & Hdec & _). destruct G1 as (L1 & J1 & J2 & J3 & J4). rewrite Sv2 in J1. injection J1 as <-. rewrite Sv1 in J2. injection J2 as <-.
  pose proof (mcols_is_mat n p (keep_of p0 Q) L HL) as HM. assert (Hr : r <= p).
  { destruct G3 as (L2 & I1 & _ & I2 & _). rewrite Sv1 in I1. injection I1 as <-. rewrite (ncols_is_mat _ _ _ HM Hn) in I2. lia. }
  assert (Hr' : r <= length s) by (rewrite Hs; lia). destruct (normalized_lost s s' r Hdec Ns Hr') as [Hl Ht]. exists r, s'. split; [auto|]. split; [auto|].
  assert (Hlen : length s' = length s). { destruct (normalized_spec s s' Ns) as (c & _ & -> & _ & _). now rewrite map_length, sort_length. }
  split. { rewrite G5. f_equal. rewrite kept_lost; auto; [|lia]. now apply normalized_tot in Ns. }
  repeat split; auto. unfold static in *. congruence.
Qed.
Lemma mget_firstn r i j A : j < r -> mget (map (firstn r) A) i j = mget A i j.
Proof.
  intros Hj. unfold mget. assert (E : nth i (map (firstn r) A) [] = firstn r (nth i A [])). { rewrite <- (map_nth (firstn r)). f_equal. now rewrite firstn_nil. }
  rewrite E. generalize (nth i A []). intros row. revert r j Hj E. induction row as [|x row IH]; intros [|r] [|j] Hj E; cbn; auto; try lia. clear E. revert r j Hj IH.
  clear. intros r j Hj _. revert r j Hj. induction row as [|y row IH]; intros [|r] [|j] Hj; cbn; auto; try lia. apply IH. lia.
Qed.
Lemma mget_mcols0 r i j A : j < r -> mget (mcols 0 r A) i j = mget A i j.
Proof. intros Hj. unfold mcols, slice. rewrite Nat.sub_0_r. cbn [skipn]. now apply mget_firstn. Qed.
Lemma C15_wsvd X h st g p0 q Q n k p L s Rt W : pod_run X (h ++ [OFit st] ++ g) p0 = Some q -> existsb is_fit g = false -> snap_mat st = Ok Q -> is_mat n k Q -> 0 < n -> 0 < k ->
  p_weights p0 = W -> ok_weight n W -> inv p0 -> Forall proper_op (h ++ [OFit st] ++ g) -> rectangular X p0 ->
  pod_svd X p0 (keep_of p0 Q) Q = Ok (L, s, Rt) -> wsvd n k p W Q L s Rt ->
  exists r s', keeps q r /\ p_svals q = Some s' /\ p_res q = Some (lost s' r) /\ lost s' r = lost s r /\ tot2 s <> 0%R /\ (0 < r -> exists A, basis_of n r W A (BPod q) /\ w_orthonormal n r W A) /\
    (0 < r -> exists P, b_project (BPod q) (M Q) = Ok (M P) /\ is_mat n k P /\ wnorm2 n k W (msub Q P) = (lost s' r * wnorm2 n k W Q)%R).
Proof.
  intros E Hg Hst HQ Hn Hk HW0 HW Hi Ho HR Hv Hw. destruct (after_fit X h st g p0 q Q n k p L s Rt W E Hg Hst HQ Hn Hk HW0 HW Hi Ho HR Hv Hw) as (r & s' & Kq & Es & Er & El & Hr & Ht & EL & EW).
  exists r, s'. do 5 (split; [assumption|]). assert (Hw' := Hw). destruct Hw' as (HL & Hs & _ & HO & _ & _ & _ & _). destruct Kq as (L1 & I1 & I2 & I3 & I4). rewrite EL in I1. injection I1 as <-.
  set (keep := keep_of p0 Q) in *. pose proof (mcols_is_mat n p keep L HL) as HM. rewrite (ncols_is_mat _ _ _ HM Hn) in I3.
  set (A := map (firstn r) (mcols 0 keep L)) in *. assert (HA : is_mat n r A) by (apply (is_mat_firstn n (Nat.min keep p)); auto).
  assert (GA : forall i b, b < r -> mget A i b = mget L i b). { intros i b Hb. unfold A. rewrite mget_firstn by auto. apply mget_mcols0. lia. }
  assert (OA : w_orthonormal n r W A). { intros a b Ha Hb. rewrite (wip_ext n W _ (fun i => mget L i a) _ (fun i => mget L i b)) by (intros; apply GA; auto). apply HO; lia. }
  assert (BA : 0 < r -> basis_of n r W A (BPod q)). { intros Hr0. split; [auto|]. split; [auto|]. split; [exact HA|]. split; [auto|]. split; [exact I4|exact EW]. }
  split; [intros; exists A; auto|]. intros Hr0. destruct (b_project_ok n r k W A (BPod q) (M Q) (BA Hr0) HQ) as (y & P & _ & _ & EP & _ & SP & KP & _ & G1 & G2).
  destruct P as [v|P]; [now cbn in KP|]. cbn [shaped aget] in *. exists P. split; [exact EP|]. split; [exact SP|].
  destruct (wsvd_residual n k p W Q L s Rt r Hw Hr) as [_ Hres].
  rewrite El. unfold lost. rewrite (wsvd_total n k p W Q L s Rt Hw). unfold Rdiv. rewrite Rmult_assoc, Rinv_l, Rmult_1_r by auto. rewrite Hs, <- Hres.
  unfold wnorm2. apply bsum_ext. intros l Hl.
  assert (D : forall t, t < n -> mget (msub Q P) t l = (mget Q t l - span r L (fun b => wip n W (fun i => mget L i b) (fun i => mget Q i l)) t)%R).
  { intros t Htn. rewrite (mget_msub n k) by auto. f_equal. rewrite G2 by auto. unfold span. apply bsum_ext. intros b Hb. rewrite GA by auto. f_equal. rewrite G1 by auto.
    apply wip_ext; auto. }
  apply wip_ext; auto.
Qed.
Lemma svd_wsvd X Q n k L s Rt : SpecLstsq.svd_spec (x_svd X) -> is_mat n k Q -> 0 < n -> 0 < k -> x_svd X Q = Ok (L, s, Rt) -> wsvd n k (Nat.min n k) None Q L s Rt.
Proof.
  intros Hsp HQ Hn Hk E. destruct (Hsp n k Q L s Rt Hn Hk HQ E) as (H1 & H2 & H3 & H4 & H5 & H6 & H7 & H8). repeat split; auto; try apply H1; try apply H3.
  - intros a b Ha Hb. rewrite wip_dlt. now apply H4.
  - intros i j Hij Hj. rewrite H2 in Hj. now apply H7.
Qed.
(* the SVD engine of an unweighted dense basis returns rectangular factors on nonempty rectangular snapshots; the histories of
   C15 ask for it through [dense_fits] *)
Lemma inv_init X a mx sv W nm p0 : pod_init X a mx sv W nm = Ok p0 -> nonneg_args a -> inv p0.
Proof. intros E Ha. destruct (pod_init_fresh _ _ _ _ _ _ _ E) as (F & Hc & _). split; auto. eapply pick_nonneg; eauto. Qed.
Lemma init_fields X a mx sv W nm p0 : pod_init X a mx sv W nm = Ok p0 -> p_solver p0 = sv /\ p_weights p0 = W /\ (W = None -> p_sqrtw p0 = None) /\
  (forall th, sv = SSnap th -> p_sqrtw p0 = None) /\
  (forall w, W = Some (WDiag w) -> (forall th, sv <> SSnap th) -> p_sqrtw p0 = Some (QDiag (map sqrt w)) /\ Forall (fun x => 0 <= x)%R w) /\
  (forall A, W = Some (WMat A) -> (forall th, sv <> SSnap th) -> exists B C, x_sqrtm X A = Ok B /\ x_chof X B = Ok C /\ p_sqrtw p0 = Some (QMat B C)).
Proof.
  unfold pod_init. destruct (pick a) as [c|]; [|discriminate]. cbn [bind]. destruct (match mx with None => _ | Some z => _ end) as [mx'|]; [|discriminate]. cbn [bind].
  destruct (match W with Some _ => _ | None => _ end) as [sw|] eqn:Es; [|discriminate]. cbn [bind]. intros E. injection E as <-. cbn. repeat split; auto.
  - intros ->. now injection Es as <-.
  - intros th ->. destruct W as [[w|A]|]; now injection Es as <-.
  - subst W. destruct sv; [| |exfalso; eapply H0; reflexivity|]; (destruct (forallb _ w); [|discriminate]); now injection Es as <-.
  - subst W. destruct sv; [| |exfalso; eapply H0; reflexivity|]; (destruct (forallb _ w) eqn:Ef; [|discriminate]); rewrite forallb_forall in Ef; apply Forall_forall; intros x Hx; specialize (Ef x Hx); now apply rleb_true in Ef.
  - intros A -> Hsv. destruct sv; try (exfalso; eapply Hsv; reflexivity); destruct (x_sqrtm X A) as [B|]; try discriminate; cbn [bind] in Es; destruct (x_chof X B) as [C|] eqn:EC; try discriminate; cbn [bind] in Es; injection Es as <-; exists B, C; auto.
Qed.

Definition engine_ok (X : ext) (p : pod) : Prop :=
  forall n k keep Q L s Rt, is_mat n k Q -> 0 < n -> 0 < k -> pod_svd X p keep Q = Ok (L, s, Rt) -> ok_weight n (p_weights p) /\ exists m, wsvd n k m (p_weights p) Q L s Rt.
Lemma engine_rectangular X p : engine_ok X p -> rectangular X p.
Proof. intros H n k keep Q L s Rt HQ Hn Hk E. destruct (H n k keep Q L s Rt HQ Hn Hk E) as (_ & m & HL & _). eauto. Qed.
Lemma is_mat_rowscale n k A (v : vec) (f : R -> R) : is_mat n k A -> is_vec n v -> is_mat n k (map2 (fun row x => map (Rmult (f x)) row) A v).
Proof.
  intros [H1 H2] Hv. split. { rewrite map2_length. unfold is_vec in *. lia. } apply Forall_nth. intros i d Hi. rewrite map2_length in Hi. unfold is_vec in Hv.
  rewrite (map2_nth _ A v i d 0%R d) by lia. rewrite map_length. rewrite Forall_nth in H2. apply H2. lia.
Qed.
Lemma mget_rowscale n k A (v : vec) (f : R -> R) i j : is_mat n k A -> is_vec n v -> i < n -> j < k -> mget (map2 (fun row x => map (Rmult (f x)) row) A v) i j = (f (vget v i) * mget A i j)%R.
Proof.
  intros HA Hv Hi Hj. unfold mget. pose proof (is_mat_len _ _ _ HA). unfold is_vec in *. rewrite (map2_nth _ A v i [] 0%R []) by lia.
  unfold vget. rewrite (nth_map_in _ _ _ _ 0%R); [reflexivity|]. rewrite (is_mat_row n k A i HA Hi). exact Hj.
Qed.
Lemma wip_diag n w x y : wip n (Some (WDiag w)) x y = bsum n (fun i => vget w i * (x i * y i))%R.
Proof.
  unfold wip. apply bsum_ext. intros i Hi. rewrite <- (bsum_dlt' n i (fun j => x i * vget w i * y j)%R Hi) at 1 || idtac.
  transitivity (bsum n (fun j => dlt i j * (x i * vget w i * y j))%R). { apply bsum_ext. intros j Hj. cbn [wget]. unfold dlt. destruct (Nat.eqb_spec i j); ring. }
  rewrite (bsum_dlt' n i (fun j => x i * vget w i * y j)%R Hi). ring.
Qed.
Lemma wsvd_diag n k m w Q L s Rt : is_mat n k Q -> 0 < n -> is_vec n w -> (forall i, i < n -> (0 < vget w i)%R) ->
  wsvd n k m None (map2 (fun row x => map (Rmult x) row) Q (map sqrt w)) L s Rt ->
  wsvd n k m (Some (WDiag w)) Q (map2 (fun row x => map (Rmult (/ x)) row) L (map sqrt w)) s Rt.
Proof.
  intros HQ Hn Hw Hpos (HL & Hs & HR & Ho & Hro & Hsp & Hdec & HQe). assert (Hsw : is_vec n (map sqrt w)) by (unfold is_vec in *; now rewrite map_length).
  assert (Gw : forall i, i < n -> vget (map sqrt w) i = sqrt (vget w i)) by (intros; apply vget_map; unfold is_vec in *; lia).
  assert (Hsq : forall i, i < n -> sqrt (vget w i) <> 0%R) by (intros i Hi; apply Rgt_not_eq, sqrt_lt_R0, Hpos; auto).
  split; [exact (is_mat_rowscale n m L _ (fun x => / x)%R HL Hsw)|]. split; [auto|]. split; [auto|]. split; [|split; [auto|split; [auto|split; [auto|]]]].
  - intros a b Ha Hb. rewrite wip_diag. rewrite <- (Ho a b Ha Hb), wip_dlt. apply bsum_ext. intros i Hi.
    rewrite !(mget_rowscale n m L _ (fun x => / x)%R) by auto. rewrite Gw by auto. specialize (Hsq i Hi). rewrite <- (sqrt_sqrt (vget w i)) at 1 by (left; auto). field. auto.
  - intros t l Ht Hl. specialize (HQe t l Ht Hl). rewrite (mget_rowscale n k Q _ (fun x => x)) in HQe by auto. rewrite Gw in HQe by auto.
    transitivity (/ sqrt (vget w t) * (sqrt (vget w t) * mget Q t l))%R. { rewrite <- Rmult_assoc, Rinv_l by auto. ring. }
    rewrite HQe. rewrite <- bsum_scal_l. apply bsum_ext. intros i Hi. rewrite (mget_rowscale n m L _ (fun x => / x)%R) by auto. rewrite Gw by auto. ring.
Qed.
Lemma bsum_triple n m p f : bsum n (fun i => bsum m (fun j => bsum p (fun l => f i j l))) = bsum p (fun l => bsum n (fun i => bsum m (fun j => f i j l))).
Proof.
  transitivity (bsum n (fun i => bsum p (fun l => bsum m (fun j => f i j l)))). { apply bsum_ext. intros. apply bsum_swap. } apply bsum_swap.
Qed.
Lemma wip_square n A B x y : (forall i j, i < n -> j < n -> mget B i j = mget B j i) -> (forall i j, i < n -> j < n -> mget A i j = bsum n (fun l => mget B i l * mget B l j)%R) ->
  wip n (Some (WMat A)) x y = bsum n (fun l => bsum n (fun i => mget B l i * x i) * bsum n (fun j => mget B l j * y j))%R.
Proof.
  intros Hs HA. unfold wip. cbn [wget].
  transitivity (bsum n (fun i => bsum n (fun j => bsum n (fun l => (mget B l i * x i) * (mget B l j * y j))%R))).
  { apply bsum_ext. intros i Hi. apply bsum_ext. intros j Hj. rewrite HA by auto. rewrite <- bsum_scal_l, <- bsum_scal_r. apply bsum_ext. intros l Hl. rewrite (Hs i l) by auto. ring. }
  rewrite bsum_triple. apply bsum_ext. intros l Hl. symmetry. rewrite <- bsum_scal_r. apply bsum_ext. intros i Hi. now rewrite <- bsum_scal_l.
Qed.
Lemma wsvd_mat n k m A B Q BQ L Y s Rt : is_mat n k Q -> is_mat n m Y ->
  (forall i j, i < n -> j < n -> mget B i j = mget B j i) -> (forall i j, i < n -> j < n -> mget A i j = bsum n (fun l => mget B i l * mget B l j)%R) ->
  (forall v, (forall i, i < n -> bsum n (fun l => mget B i l * v l)%R = 0%R) -> forall i, i < n -> v i = 0%R) ->
  (forall i j, i < n -> j < k -> mget BQ i j = bsum n (fun l => mget B i l * mget Q l j)%R) ->
  (forall i j, i < n -> j < m -> bsum n (fun l => mget B i l * mget Y l j)%R = mget L i j) ->
  wsvd n k m None BQ L s Rt -> wsvd n k m (Some (WMat A)) Q Y s Rt.
Proof.
  intros HQ HY Bs HA Hinj HB HYe (HL & Hs & HR & Ho & Hro & Hsp & Hdec & HQe). split; [exact HY|]. split; [auto|]. split; [auto|]. split; [|split; [auto|split; [auto|split; [auto|]]]].
  - intros a b Ha Hb. rewrite (wip_square n A B) by auto. rewrite <- (Ho a b Ha Hb), wip_dlt. apply bsum_ext. intros l Hl. now rewrite !HYe by auto.
  - intros t l Ht Hl. apply Rminus_diag_uniq. apply (Hinj (fun t => mget Q t l - bsum m (fun i => vget s i * (mget Y t i * mget Rt i l)))%R); auto.
    intros i Hi. rewrite (bsum_ext n _ (fun t => mget B i t * mget Q t l - bsum m (fun j => (vget s j * mget Rt j l) * (mget B i t * mget Y t j)))%R).
    2:{ intros u Hu. rewrite Rmult_minus_distr_l. f_equal. rewrite <- bsum_scal_l. apply bsum_ext. intros. ring. }
    rewrite bsum_minus, <- HB, bsum_swap, HQe by auto. apply Rminus_diag_eq. apply bsum_ext. intros j Hj. rewrite bsum_scal_l, HYe by auto. ring.
Qed.
Lemma engine_exact X a mx sv W nm p0 : pod_init X a mx sv W nm = Ok p0 -> exact_solver X sv -> spd_weight X W -> engine_ok X p0.
Proof.
  intros E Hx HW n k keep Q L s Rt HQ Hn Hk Ev. destruct (init_fields _ _ _ _ _ _ _ E) as (F1 & F2 & F3 & _ & F5 & F6). rewrite F2.
  assert (Hns : forall th, sv <> SSnap th) by (intros th ->; exact Hx).
  assert (Hen : forall n k Q L s Rt, is_mat n k Q -> 0 < n -> 0 < k -> engine X p0 keep Q = Ok (L, s, Rt) -> wsvd n k (Nat.min n k) None Q L s Rt).
  { clear - F1 Hx. intros n k Q L s Rt HQ Hn Hk E. unfold engine in E. rewrite F1 in E. destruct sv; cbn [exact_solver] in Hx; try contradiction.
    - now apply (svd_wsvd X).
    - exact (svd_wsvd {| x_svd := f; x_rsvd := x_rsvd X; x_eigh := x_eigh X; x_sqrtm := x_sqrtm X; x_chof := x_chof X; x_chos := x_chos X |} Q n k L s Rt Hx HQ Hn Hk E). }
  unfold pod_svd in Ev. destruct W as [[w|A]|].
  - destruct (F5 w eq_refl Hns) as [Ew Hw]. rewrite Ew in Ev. unfold nrows in Ev. rewrite (is_mat_len _ _ _ HQ) in Ev. cbn [sqw_len] in Ev. rewrite map_length in Ev.
    destruct (Nat.eqb_spec n (length w)) as [Hl|]; [|discriminate]. cbn [negb sqw_mul bind] in Ev. assert (Hwv : is_vec n w) by (now unfold is_vec).
    assert (Hsw : is_vec n (map sqrt w)) by (unfold is_vec in *; now rewrite map_length).
    destruct (engine X p0 keep _) as [[[L0 s0] R0]|] eqn:Ee; [|discriminate]. cbn [bind sqw_solve] in Ev. destruct (forallb isnz _) eqn:Ez; [|discriminate]. cbn [bind] in Ev. injection Ev as <- <- <-.
    split; [exact Hwv|]. exists (Nat.min n k). apply wsvd_diag; auto.
    + intros i Hi. rewrite Forall_forall in Hw. assert (0 <= vget w i)%R by (apply Hw, nth_In; lia). rewrite forallb_forall in Ez.
      specialize (Ez (vget (map sqrt w) i)). rewrite vget_map in Ez by lia. unfold isnz in Ez. destruct (Req_EM_T (sqrt (vget w i)) 0) as [Z|Z].
      * specialize (Ez ltac:(rewrite <- (vget_map sqrt w i) by lia; apply nth_In; rewrite map_length; lia)). discriminate.
      * destruct (Req_dec (vget w i) 0) as [Z0|]; [|lra]. exfalso. apply Z. rewrite Z0. apply sqrt_0.
    + apply Hen; auto. now apply (is_mat_rowscale n k Q _ (fun x => x)).
  - destruct (F6 A eq_refl Hns) as (B & C & EB & EC & Ew). rewrite Ew in Ev. cbn [spd_weight] in HW. destruct HW as ((n0 & HA & Hsym & Hnn) & Hsq & Hch).
    destruct (Hsq n0 A B HA Hsym Hnn EB) as (HB & Bs & HAe). destruct (Hch n0 B C HB EC) as [Hinj Hsol].
    unfold nrows in Ev. cbn [sqw_len] in Ev. unfold nrows in Ev. rewrite (is_mat_len _ _ _ HQ), (is_mat_len _ _ _ HB) in Ev. destruct (Nat.eqb_spec n n0) as [<-|]; [|discriminate].
    cbn [negb sqw_mul bind] in Ev. unfold matmul_r in Ev. unfold nrows in Ev. rewrite (ncols_is_mat n n B HB Hn), (is_mat_len _ _ _ HQ), Nat.eqb_refl in Ev. cbn [bind] in Ev.
    destruct (engine X p0 keep _) as [[[L0 s0] R0]|] eqn:Ee; [|discriminate]. cbn [bind sqw_solve] in Ev. destruct (x_chos X C L0) as [Y|] eqn:EY; [|discriminate]. cbn [bind] in Ev. injection Ev as <- <- <-.
    assert (HBQ : is_mat n k (matmul B Q)) by (now apply (is_mat_matmul n n k)). pose proof (Hen n k _ _ _ _ HBQ Hn Hk Ee) as Hw0. assert (HL0 := proj1 Hw0).
    destruct (Hsol _ L0 Y HL0 EY) as [HY HYe]. split; [exact HA|]. exists (Nat.min n k). eapply (wsvd_mat n k _ A B Q (matmul B Q) L0 Y); eauto.
    intros i j Hi Hj. now rewrite (mget_matmul n n k).
  - rewrite F3 in Ev by auto. split; [exact I|]. exists (Nat.min n k). now apply Hen.
Qed.
Lemma run_fit_svd X h st g p0 q Q : pod_run X (h ++ [OFit st] ++ g) p0 = Some q -> snap_mat st = Ok Q -> exists L s Rt, pod_svd X p0 (keep_of p0 Q) Q = Ok (L, s, Rt).
Proof.
  intros E Hst. apply run_app in E. destruct E as (a & A & E). apply run_app in E. destruct E as (b & B & _). apply run_static in A. cbn [pod_run pod_step] in B.
  destruct (pod_fit X st a) as [b' [|]] eqn:F; [discriminate|]. unfold pod_fit in F. rewrite Hst in F. cbv zeta in F. fold (keep_of a Q) in F.
  assert (Hv : pod_svd X a (keep_of a Q) Q = pod_svd X p0 (keep_of p0 Q) Q). { unfold pod_svd, engine, keep_of. injection A as _ -> -> -> ->. reflexivity. }
  rewrite Hv in F. destruct (pod_svd X p0 (keep_of p0 Q) Q) as [[[L s] Rt]|]; [eauto|discriminate].
Qed.
Lemma C15_energy X a mx sv W nm p0 h st g q Q n k : pod_init X a mx sv W nm = Ok p0 -> exact_solver X sv -> spd_weight X W -> nonneg_args a ->
  Forall proper_op (h ++ [OFit st] ++ g) -> existsb is_fit g = false -> pod_run X (h ++ [OFit st] ++ g) p0 = Some q -> snap_mat st = Ok Q -> is_mat n k Q -> 0 < n -> 0 < k ->
  exists r s, keeps q r /\ p_svals q = Some s /\ p_res q = Some (lost s r) /\ (0 < r ->
    (exists A, basis_of n r W A (BPod q) /\ w_orthonormal n r W A) /\
    (exists P, b_project (BPod q) (M Q) = Ok (M P) /\ is_mat n k P /\ wnorm2 n k W (msub Q P) = (lost s r * wnorm2 n k W Q)%R)).
Proof.
  intros E Hx HW Ha Ho Hg Er Hst HQ Hn Hk. pose proof (engine_exact X a mx sv W nm p0 E Hx HW) as He. destruct (run_fit_svd _ _ _ _ _ _ _ Er Hst) as (L & s & Rt & Ev).
  destruct (He n k _ Q L s Rt HQ Hn Hk Ev) as (Hok & m & Hw). destruct (init_fields _ _ _ _ _ _ _ E) as (_ & F2 & _). rewrite F2 in *.
  destruct (C15_wsvd X h st g p0 q Q n k m L s Rt W Er Hg Hst HQ Hn Hk F2 Hok (inv_init _ _ _ _ _ _ _ E Ha) Ho (engine_rectangular _ _ He) Ev Hw) as (r & s' & K1 & K2 & K3 & K4 & K5 & K6 & K7).
  exists r, s'. repeat split; auto.
Qed.
Lemma wnorm_none n k A : is_mat n k A -> wnorm2 n k None A = anorm2 n k (fun i j => mget A i j).
Proof. intros HA. rewrite wip_none_anorm. reflexivity. Qed.
Lemma C15_error X a mx sv nm p0 h st g q Q n k : pod_init X a mx sv None nm = Ok p0 -> exact_solver X sv -> nonneg_args a ->
  Forall proper_op (h ++ [OFit st] ++ g) -> existsb is_fit g = false -> pod_run X (h ++ [OFit st] ++ g) p0 = Some q -> snap_mat st = Ok Q -> is_mat n k Q -> 0 < n -> 0 < k ->
  exists r s, keeps q r /\ p_svals q = Some s /\ p_res q = Some (lost s r) /\ (0 < r -> b_error (BPod q) (M Q) true = Ok (sqrt (lost s r))).
Proof.
  intros E Hx Ha Ho Hg Er Hst HQ Hn Hk. pose proof (engine_exact X a mx sv None nm p0 E Hx I) as He. destruct (run_fit_svd _ _ _ _ _ _ _ Er Hst) as (L & s & Rt & Ev).
  destruct (He n k _ Q L s Rt HQ Hn Hk Ev) as (Hok & m & Hw). destruct (init_fields _ _ _ _ _ _ _ E) as (_ & F2 & _). rewrite F2 in *.
  destruct (C15_wsvd X h st g p0 q Q n k m L s Rt None Er Hg Hst HQ Hn Hk F2 Hok (inv_init _ _ _ _ _ _ _ E Ha) Ho (engine_rectangular _ _ He) Ev Hw) as (r & s' & K1 & K2 & K3 & K4 & K5 & K6 & K7).
  exists r, s'. repeat split; auto. intros Hr. destruct (K6 Hr) as (A & HA & _). destruct (K7 Hr) as (P & EP & HP & HN). destruct (b_error_ok n r k None A (BPod q) (M Q) HA HQ) as (p & E1 & _ & _ & E2 & _).
  rewrite EP in E1. injection E1 as <-. cbn [aget] in E2. pose proof (wsvd_total _ _ _ _ _ _ _ _ Hw) as Ht. rewrite wnorm_none in Ht by auto. pose proof (fro_sqrt n k (M Q) HQ) as Hf. change (fro (M Q) = sqrt (anorm2 n k (fun i j => mget Q i j))) in Hf. rewrite Ht in Hf.
  assert (Htp : (0 < tot2 s)%R) by (pose proof (tot2_nonneg s); lra). rewrite Hf in E2. rewrite E2 by (apply Rgt_not_eq, sqrt_lt_R0; auto). f_equal.
  rewrite wnorm_none in HN by (now apply is_mat_msub). rewrite (anorm2_ext n k _ (fun i j => mget Q i j - mget P i j)%R) in HN by (intros; now apply (mget_msub n k)).
  rewrite HN, wnorm_none, Ht by auto. rewrite <- sqrt_div_alt by auto. f_equal. field. lra.
Qed.

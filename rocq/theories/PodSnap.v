(* PodSnap.v -- proofs about method_of_snapshots. *)
From Coq Require Import ZArith Lia Lra List.
From Verif Require Import LinAlg MatAlg EckartYoung LinSys BasisProofs PodRank PodFinal PodHist PodError.
From Verif Require Export SpecBasis.
#[local] Open Scope nat_scope.

Lemma desc_tail_false t (y : R) v : desc v -> (forall x, In x v -> (x <= y)%R) -> rltb t y = false -> forall x, In x v -> rltb t x = false.
Proof. intros _ H Hy x Hx. specialize (H x Hx). unfold rltb in *. destruct (Rlt_dec t y); [discriminate|]. destruct (Rlt_dec t x); auto. lra. Qed.
Lemma mask_all_false {A} m (l : list A) : (forall b, In b m -> b = false) -> mask m l = [].
Proof.
  revert l. unfold mask. induction m as [|b m IH]; intros l H; cbn; auto. destruct l as [|x l]; auto. cbn. rewrite (H b (or_introl eq_refl)). cbn. apply IH. intros c Hc. apply H. now right.
Qed.
Lemma mask_prefix {A} t v : decreasing v -> forall l : list A, length l = length v -> mask (map (fun x => rltb t x) v) l = firstn (countb (fun x => rltb t x) v) l.
Proof.
  rewrite <- desc_dec. induction v as [|y v IH]; intros Hd l Hl. { destruct l; [reflexivity|discriminate]. }
  destruct l as [|x l]; [discriminate|]. cbn in Hl. destruct Hd as [H1 H2]. rewrite countb_cons. destruct (rltb t y) eqn:E.
  - unfold mask in *. cbn. rewrite E. cbn. f_equal. apply IH; auto.
  - assert (F : forall z, In z v -> rltb t z = false) by (eapply desc_tail_false; eauto).
    rewrite mask_all_false. { rewrite countb_none by auto. reflexivity. } intros b Hb. cbn in Hb. destruct Hb as [<-|Hb]; auto. apply in_map_iff in Hb. destruct Hb as (z & <- & Hz). auto.
Qed.
Lemma vget_rev k v i : is_vec k v -> i < k -> vget (rev v) i = vget v (k - 1 - i).
Proof. intros Hv Hi. unfold vget. rewrite rev_nth by (unfold is_vec in Hv; lia). f_equal. unfold is_vec in Hv. lia. Qed.
Lemma is_mat_revc n k E : is_mat n k E -> is_mat n k (map (@rev R) E).
Proof. intros [H1 H2]. split. { now rewrite map_length. } apply Forall_forall. intros row Hin. apply in_map_iff in Hin. destruct Hin as (x & <- & Hx). rewrite rev_length. rewrite Forall_forall in H2. auto. Qed.
Lemma mget_revc n k E i a : is_mat n k E -> i < n -> a < k -> mget (map (@rev R) E) i a = mget E i (k - 1 - a).
Proof.
  intros HE Hi Ha. unfold mget. rewrite (nth_map_in (@rev R) E i [] []) by (rewrite (is_mat_len _ _ _ HE); auto). pose proof (is_mat_row n k E i HE Hi) as Hr.
  unfold is_vec in Hr. rewrite rev_nth by (rewrite Hr; lia). f_equal. rewrite Hr. lia.
Qed.
Lemma vmin_in v x : vmin v = Ok x -> In x v /\ forall y, In y v -> (x <= y)%R.
Proof.
  unfold vmin. destruct v as [|a v]; [discriminate|]. intros E. injection E as <-. revert a. induction v as [|b v IH]; intros a; cbn [fold_left].
  - split; [left; reflexivity|]. intros y [<-|[]]. lra.
  - destruct (IH (Rmin a b)) as [H1 H2]. split.
    + destruct H1 as [H1|H1]. { rewrite <- H1. unfold Rmin. destruct (Rle_dec a b); cbn; auto. } right. right. exact H1.
    + intros y Hy. destruct Hy as [<-|[<-|Hy]]; [| |apply H2; right; auto].
      * eapply Rle_trans; [apply H2; left; reflexivity|apply Rmin_l].
      * eapply Rle_trans; [apply H2; left; reflexivity|apply Rmin_r].
Qed.
Lemma wip_scal_r n W x c y : wip n W x (fun t => c * y t)%R = (c * wip n W x y)%R.
Proof. unfold wip. rewrite <- bsum_scal_l. apply bsum_ext. intros i Hi. rewrite <- bsum_scal_l. apply bsum_ext. intros. ring. Qed.
Lemma wip_scal_l n W x c y : wip n W (fun t => c * x t)%R y = (c * wip n W x y)%R.
Proof. unfold wip. rewrite <- bsum_scal_l. apply bsum_ext. intros i Hi. rewrite <- bsum_scal_l. apply bsum_ext. intros. ring. Qed.
(* sum_ij e_a(i) G_ij e_b(j) when G = sum_c lam_c e_c e_c' *)
Lemma quad_eig k (lam : nat -> R) (e G : nat -> nat -> R) a b : a < k -> b < k ->
  (forall a b, a < k -> b < k -> bsum k (fun i => e a i * e b i)%R = dlt a b) -> (forall i j, i < k -> j < k -> G i j = bsum k (fun c => lam c * (e c i * e c j))%R) ->
  bsum k (fun i => e a i * bsum k (fun j => e b j * G i j))%R = (lam a * dlt a b)%R.
Proof.
  intros Ha Hb Ho HG.
  assert (I : forall i, i < k -> bsum k (fun j => e b j * G i j)%R = (lam b * e b i)%R).
  { intros i Hi. transitivity (bsum k (fun c => dlt b c * (lam c * e c i))%R); [|now rewrite (bsum_dlt' k b (fun c => lam c * e c i)%R)].
    transitivity (bsum k (fun j => bsum k (fun c => (lam c * e c i) * (e b j * e c j))%R)). { apply bsum_ext. intros j Hj. rewrite HG by auto. rewrite <- bsum_scal_l. apply bsum_ext. intros. ring. }
    rewrite bsum_swap. apply bsum_ext. intros c Hc. rewrite bsum_scal_l, Ho by auto. ring. }
  transitivity (bsum k (fun i => lam b * (e a i * e b i))%R). { apply bsum_ext. intros i Hi. rewrite I by auto. ring. }
  rewrite bsum_scal_l, Ho by auto. unfold dlt. destruct (Nat.eqb_spec a b) as [->|]; ring.
Qed.
Lemma C16_core X th W Q n k L s Rt : eigh_spec (x_eigh X) -> is_mat n k Q -> 0 < n -> 0 < k -> ok_weight n W -> w_symmetric n W ->
  method_of_snapshots X th W Q = Ok (L, s, Rt) ->
  exists lam E m, length lam = k /\ decreasing lam /\ m <= k /\ is_mat k k E /\
    (forall a b, a < k -> b < k -> bsum k (fun i => mget E i a * mget E i b)%R = dlt a b) /\
    (forall i j, i < k -> j < k -> (wip n W (fun t => mget Q t i) (fun t => mget Q t j) / INR k)%R = bsum k (fun a => vget lam a * (mget E i a * mget E j a))%R) /\
    (forall a, a < k -> (a < m <-> (Rmax th (Rabs (vget lam (k - 1))) < vget lam a)%R)) /\
    is_mat n m L /\ is_vec m s /\ is_mat m k Rt /\
    (forall a, a < m -> vget s a = sqrt (vget lam a * INR k)) /\
    (forall a l, a < m -> l < k -> mget Rt a l = mget E l a) /\
    (forall t a, t < n -> a < m -> mget L t a = bsum k (fun i => mget Q t i * (mget E i a / vget s a))%R).
Proof.
  intros Hsp HQ Hn Hk HW Hsym E. unfold method_of_snapshots in E. rewrite (ncols_is_mat n k Q HQ Hn) in E. destruct (Nat.eqb_spec k 0); [lia|].
  pose proof (is_mat_mscale n k (/ INR k) Q HQ) as HQs. destruct (wmul_ok n k W (M (mscale (/ INR k) Q)) Hn HW HQs) as (wa & E1 & S1 & K1 & G1). rewrite E1 in E. cbn [bind] in E.
  destruct wa as [v|WQ]; [discriminate|]. cbn [shaped aget] in *. unfold matmul_r in E. pose proof (is_mat_mT n k Q HQ Hn) as HT. unfold nrows in E.
  rewrite (ncols_is_mat k n _ HT Hk), (is_mat_len _ _ _ S1), Nat.eqb_refl in E. cbn [bind] in E. set (G := matmul (mT Q) WQ) in E.
  assert (HG : is_mat k k G) by (now apply (is_mat_matmul k n k)).
  assert (Ge : forall i j, i < k -> j < k -> mget G i j = (wip n W (fun t => mget Q t i) (fun t => mget Q t j) / INR k)%R).
  { intros i j Hi Hj. unfold G. rewrite (mget_matmul k n k) by auto. unfold wip, Rdiv. rewrite <- bsum_scal_r. apply bsum_ext. intros t Ht. rewrite (mget_mT n k) by auto. rewrite G1 by auto.
    rewrite <- bsum_scal_l, <- bsum_scal_r. apply bsum_ext. intros l Hl. rewrite (mget_mscale n k) by auto. ring. }
  assert (Gs : forall i j, i < k -> j < k -> mget G i j = mget G j i). { intros i j Hi Hj. rewrite !Ge by auto. f_equal. now apply wip_sym. }
  destruct (x_eigh X G) as [[vals E0]|] eqn:Ee; [|discriminate]. cbn [bind fst snd] in E. destruct (Hsp k G vals E0 Hk HG Gs Ee) as (Hv & HE & Hinc & Hoe & Hde).
  destruct (vmin (rev vals)) as [lo|] eqn:Elo; [|discriminate]. cbn [bind] in E. injection E as EL Es ER.
  set (lam := rev vals) in *. set (E' := map (@rev R) E0) in *. assert (HlL : length lam = k) by (unfold lam; now rewrite rev_length).
  assert (Gl : forall a, a < k -> vget lam a = vget vals (k - 1 - a)) by (intros; now apply vget_rev). assert (HE' : is_mat k k E') by (now apply is_mat_revc).
  assert (Gv : forall i a, i < k -> a < k -> mget E' i a = mget E0 i (k - 1 - a)) by (intros; now apply (mget_revc k k)).
  assert (Hdec : decreasing lam). { intros i j Hij Hj. rewrite !Gl by lia. apply Hinc; lia. }
  assert (Hlo : lo = vget lam (k - 1)). { destruct (vmin_in _ _ Elo) as [L1 L2]. apply Rle_antisym. { apply L2. apply nth_In. lia. } apply (In_nth _ _ 0%R) in L1. destruct L1 as (i & Hi & <-). apply (Hdec i (k - 1)); lia. }
  rewrite Hlo in *. set (T := Rmax th (Rabs (vget lam (k - 1)))) in *. set (m := countb (fun x => rltb T x) lam) in *.
  assert (Hm : m <= k) by (rewrite <- HlL; apply countb_le).
  assert (EV : map (mask (map (fun x => rltb T x) lam)) E' = map (firstn m) E').
  { apply map_ext_in. intros row Hrow. apply mask_prefix; auto. rewrite HlL. destruct HE' as [_ HF]. rewrite Forall_forall in HF. now apply HF. }
  assert (Ev : mask (map (fun x => rltb T x) lam) lam = firstn m lam) by (now apply mask_prefix). rewrite EV, Ev in *.
  set (V := map (firstn m) E') in *. assert (HV : is_mat k m V) by (apply (is_mat_firstn k k); auto).
  assert (GV : forall i a, a < m -> mget V i a = mget E' i a) by (intros; now apply mget_firstn).
  assert (Hs : is_vec m s). { rewrite <- Es. unfold is_vec. rewrite map_length, firstn_length. lia. }
  assert (Gs' : forall a, a < m -> vget s a = sqrt (vget lam a * INR k)). { intros a Ha. rewrite <- Es. rewrite vget_map by (rewrite firstn_length; lia). f_equal. f_equal. unfold vget. rewrite <- (firstn_skipn m lam) at 2. rewrite app_nth1; auto. rewrite firstn_length. lia. }
  set (V2 := map (fun row => map2 Rdiv row s) V) in *. rewrite Es in EL. fold V2 in EL. assert (HV2 : is_mat k m V2).
  { destruct HV as [A1 A2]. split. { unfold V2. now rewrite map_length. } apply Forall_forall. intros row Hrow. apply in_map_iff in Hrow. destruct Hrow as (x & <- & Hx). rewrite Forall_forall in A2. rewrite map2_length, (A2 x Hx), Hs. lia. }
  assert (GV2 : forall i a, i < k -> a < m -> mget V2 i a = (mget E' i a / vget s a)%R).
  { intros i a Hi Ha. unfold V2, mget. rewrite (nth_map_in _ V i [] []) by (rewrite (is_mat_len _ _ _ HV); auto). pose proof (is_mat_row k m V i HV Hi) as Hr. unfold is_vec in *.
    rewrite (map2_nth Rdiv (nth i V []) s a 0%R 0%R 0%R) by lia. change (mget V i a / vget s a = mget E' i a / vget s a)%R. now rewrite GV. }
  exists lam, E', m. split; [auto|]. split; [auto|]. split; [auto|]. split; [auto|]. split.
  { intros a b Ha Hb. transitivity (bsum k (fun i => mget E0 i (k - 1 - a) * mget E0 i (k - 1 - b))%R). { apply bsum_ext. intros. now rewrite !Gv by auto. }
    rewrite Hoe by lia. unfold dlt. destruct (Nat.eqb_spec (k - 1 - a) (k - 1 - b)), (Nat.eqb_spec a b); auto; lia. }
  split. { intros i j Hi Hj. rewrite <- Ge, Hde by auto. rewrite bsum_rev. apply bsum_ext. intros a Ha. rewrite Gl, !Gv by auto. reflexivity. }
  split. { intros a Ha. pose proof (count_decreasing lam (fun x => rltb T x) Hdec ltac:(intros x y Hxy; rewrite !rltb_true; lra) a ltac:(lia)) as C. rewrite rltb_true in C. symmetry. exact C. }
  split. { rewrite <- EL. now apply (is_mat_matmul n k m). } split; [auto|]. split. { rewrite <- ER. now apply is_mat_mT. }
  split; [auto|]. split. { intros a l Ha Hl. rewrite <- ER. rewrite (mget_mT k m) by auto. now apply GV. }
  intros t a Ht Ha. rewrite <- EL. rewrite (mget_matmul n k m) by auto. apply bsum_ext. intros i Hi. now rewrite GV2.
Qed.
Lemma C16_snapshots X th W Q n k L s Rt : eigh_spec (x_eigh X) -> is_mat n k Q -> 0 < n -> 0 < k -> ok_weight n W -> w_symmetric n W ->
  method_of_snapshots X th W Q = Ok (L, s, Rt) ->
  exists lam m, gram_eigs n k W Q lam /\ (forall a, a < k -> (a < m <-> (Rmax th (Rabs (vget lam (k - 1))) < vget lam a)%R)) /\ m <= k /\
    is_mat n m L /\ is_vec m s /\ is_mat m k Rt /\ w_orthonormal n m W L /\
    (forall i j, i < m -> j < m -> bsum k (fun l => mget Rt i l * mget Rt j l)%R = if i =? j then 1%R else 0%R) /\
    (forall a, a < m -> (0 < vget s a)%R /\ Rsqr (vget s a) = (INR k * vget lam a)%R) /\ decreasing s /\
    (forall t a, t < n -> a < m -> (vget s a * mget L t a)%R = bsum k (fun l => mget Q t l * mget Rt a l)%R) /\
    resid2 n k W Q L s Rt = (INR k * bsum (k - m) (fun a => vget lam (m + a)))%R.
Proof.
  intros Hsp HQ Hn Hk HW Hsym Em. destruct (C16_core X th W Q n k L s Rt Hsp HQ Hn Hk HW Hsym Em) as (lam & E & m & Hll & Hdec & Hm & HE & Hoe & Hde & Hpre & HL & Hs & HR & Gs & GR & GL).
  assert (HkR : (0 < INR k)%R) by (now apply lt_0_INR).
  assert (Hlp : forall a, a < m -> (0 < vget lam a)%R). { intros a Ha. pose proof (proj1 (Hpre a ltac:(lia)) Ha) as H. pose proof (Rmax_r th (Rabs (vget lam (k - 1)))). pose proof (Rabs_pos (vget lam (k - 1))). lra. }
  assert (Hsp' : forall a, a < m -> (0 < vget s a)%R). { intros a Ha. rewrite Gs by auto. apply sqrt_lt_R0. apply Rmult_lt_0_compat; auto. }
  assert (Hsq : forall a, a < m -> Rsqr (vget s a) = (INR k * vget lam a)%R). { intros a Ha. rewrite Gs by auto. rewrite Rsqr_sqrt; [ring|]. left. apply Rmult_lt_0_compat; auto. }
  (* Q e_a *)
  set (qe := fun a t => bsum k (fun i => mget Q t i * mget E i a)%R).
  assert (Wqe : forall a b, a < k -> b < k -> wip n W (qe a) (qe b) = (INR k * vget lam a * dlt a b)%R).
  { intros a b Ha Hb. rewrite (wip_ext n W (qe a) (fun t => bsum k (fun i => mget E i a * mget Q t i)%R) (qe b) (fun t => bsum k (fun j => mget E j b * mget Q t j)%R)) by (intros; unfold qe; apply bsum_ext; intros; ring).
    rewrite (wip_sum_l n W _ k (fun i => mget E i a) (fun i t => mget Q t i)).
    transitivity (bsum k (fun i => mget E i a * bsum k (fun j => mget E j b * (INR k * (wip n W (fun t => mget Q t i) (fun t => mget Q t j) / INR k))))%R).
    { apply bsum_ext. intros i Hi. f_equal. rewrite (wip_sum_r n W _ k (fun j => mget E j b) (fun j t => mget Q t j)). apply bsum_ext. intros j Hj. f_equal. field. lra. }
    transitivity (INR k * bsum k (fun i => mget E i a * bsum k (fun j => mget E j b * (wip n W (fun t => mget Q t i) (fun t => mget Q t j) / INR k))))%R.
    { rewrite <- bsum_scal_l. apply bsum_ext. intros i Hi. rewrite Rmult_comm, (Rmult_comm (mget E i a)), <- Rmult_assoc. rewrite (Rmult_comm _ (mget E i a)), (Rmult_comm _ (mget E i a)). f_equal. rewrite <- bsum_scal_l. apply bsum_ext. intros. ring. }
    rewrite (quad_eig k (fun c => vget lam c) (fun c i => mget E i c) (fun i j => wip n W (fun t => mget Q t i) (fun t => mget Q t j) / INR k)%R a b Ha Hb Hoe Hde). ring. }
  assert (GL' : forall t a, t < n -> a < m -> mget L t a = (/ vget s a * qe a t)%R).
  { intros t a Ht Ha. rewrite GL by auto. unfold qe. rewrite <- bsum_scal_l. apply bsum_ext. intros. unfold Rdiv. ring. }
  exists lam, m. split. { split; [auto|]. split; [auto|]. exists E. auto. } split; [auto|]. split; [auto|]. split; [auto|]. split; [auto|]. split; [auto|]. split.
  { intros a b Ha Hb. rewrite (wip_ext n W _ (fun t => / vget s a * qe a t)%R _ (fun t => / vget s b * qe b t)%R) by auto.
    rewrite wip_scal_l, wip_scal_r, Wqe by lia. unfold dlt. destruct (Nat.eqb_spec a b) as [<-|]; [|ring]. specialize (Hsq a Ha). specialize (Hsp' a Ha). unfold Rsqr in Hsq. rewrite Rmult_1_r. rewrite <- Hsq. field. lra. }
  split. { intros i j Hi Hj. transitivity (bsum k (fun l => mget E l i * mget E l j)%R). { apply bsum_ext. intros l Hl. now rewrite !GR by auto. } apply Hoe; lia. }
  split; [auto|]. split.
  { intros i j Hij Hj. rewrite Hs in Hj. rewrite !Gs by lia. apply sqrt_le_1_alt. apply Rmult_le_compat_r; [lra|]. apply Hdec; lia. }
  split. { intros t a Ht Ha. rewrite GL' by auto. rewrite <- Rmult_assoc, Rinv_r, Rmult_1_l by (specialize (Hsp' a Ha); lra). unfold qe. apply bsum_ext. intros l Hl. now rewrite GR. }
  unfold resid2. rewrite Hs.
  (* completeness of the eigenvectors *)
  assert (Hrow : forall i j, i < k -> j < k -> bsum k (fun a => mget E i a * mget E j a)%R = dlt i j).
  { intros i j Hi Hj. apply (inverse_comm k (fun a i => mget E i a) (fun i a => mget E i a)); auto. }
  assert (D : forall t l, t < n -> l < k -> (mget Q t l - bsum m (fun i => vget s i * (mget L t i * mget Rt i l)))%R = bsum (k - m) (fun a => mget E l (m + a) * qe (m + a)%nat t)%R).
  { intros t l Ht Hl. assert (C : mget Q t l = bsum k (fun a => mget E l a * qe a t)%R).
    { unfold qe. transitivity (bsum k (fun i => dlt l i * mget Q t i)%R). { now rewrite (bsum_dlt' k l (fun i => mget Q t i)). }
      transitivity (bsum k (fun a => bsum k (fun i => mget Q t i * (mget E l a * mget E i a))%R)).
      - rewrite bsum_swap. apply bsum_ext. intros i Hi. rewrite bsum_scal_l, Hrow by auto. ring.
      - apply bsum_ext. intros a Ha. rewrite <- bsum_scal_l. apply bsum_ext. intros. ring. }
    rewrite C. replace k with (m + (k - m)) at 1 by lia. rewrite bsum_split.
    rewrite (bsum_ext m (fun i => vget s i * (mget L t i * mget Rt i l))%R (fun a => mget E l a * qe a t)%R); [ring|].
    intros a Ha. rewrite GL', GR by auto. specialize (Hsp' a Ha). field. lra. }
  transitivity (bsum k (fun l => bsum (k - m) (fun a => INR k * vget lam (m + a) * (mget E l (m + a) * mget E l (m + a)))%R)).
  { apply bsum_ext. intros l Hl. rewrite (wip_ext n W _ (fun t => bsum (k - m) (fun a => mget E l (m + a) * qe (m + a)%nat t)%R) _ (fun t => bsum (k - m) (fun a => mget E l (m + a) * qe (m + a)%nat t)%R)) by (intros; now apply D).
    rewrite (wip_sum_l n W _ (k - m) (fun a => mget E l (m + a)) (fun a => qe (m + a))). apply bsum_ext. intros a Ha. rewrite (wip_sum_r n W _ (k - m) (fun a => mget E l (m + a)) (fun a => qe (m + a))).
    rewrite (bsum_ext (k - m) _ (fun b => dlt a b * (INR k * vget lam (m + a) * mget E l (m + b)))%R).
    - rewrite (bsum_dlt' (k - m) a (fun b => INR k * vget lam (m + a) * mget E l (m + b))%R Ha). ring.
    - intros b Hb. rewrite Wqe by lia. unfold dlt. destruct (Nat.eqb_spec (m + a) (m + b)), (Nat.eqb_spec a b); try lia; ring. }
  rewrite bsum_swap. rewrite <- bsum_scal_l. apply bsum_ext. intros a Ha. rewrite bsum_scal_l, Hoe by lia. unfold dlt. rewrite Nat.eqb_refl. ring.
Qed.
(* the factors reconstruct the snapshots when every dropped eigenvalue is zero *)
Lemma C16_exact X th W Q n k L s Rt : eigh_spec (x_eigh X) -> is_mat n k Q -> 0 < n -> 0 < k -> ok_weight n W -> w_symmetric n W -> w_nonneg n W -> w_definite n W ->
  method_of_snapshots X th W Q = Ok (L, s, Rt) ->
  (forall lam, gram_eigs n k W Q lam -> forall a, a < k -> (vget lam a <= Rmax th (Rabs (vget lam (k - 1))))%R -> vget lam a = 0%R) ->
  wsvd n k (length s) W Q L s Rt.
Proof.
  intros Hsp HQ Hn Hk HW Hsym Hnn Hdef Em Hz. destruct (C16_snapshots X th W Q n k L s Rt Hsp HQ Hn Hk HW Hsym Em) as (lam & m & Hg & Hpre & Hm & HL & Hs & HR & HO & HRo & Hsq & Hdec & HLe & Hres).
  rewrite Hs. split; [auto|]. split; [auto|]. split; [auto|]. split; [auto|]. split; [auto|]. split; [intros i Hi; destruct (Hsq i Hi); lra|]. split; [auto|].
  assert (R0 : resid2 n k W Q L s Rt = 0%R).
  { rewrite Hres. rewrite bsum_0; [ring|]. intros a Ha. apply (Hz lam Hg); [lia|]. apply Rnot_lt_le. intros C. apply (Hpre (m + a)) in C; lia. }
  unfold resid2 in R0. intros t l Ht Hl. pose proof (bsum_nonneg_0 k _ ltac:(intros; apply Hnn) R0 l Hl) as H1. cbv beta in H1. pose proof (Hdef _ H1 t Ht) as H2. cbv beta in H2. rewrite Hs in H2. lra.
Qed.
(* if every eigenvalue is positive the smallest one is always dropped, and the factors do not reconstruct the snapshots *)
Lemma C16_positive_refuted X th W Q n k L s Rt : eigh_spec (x_eigh X) -> is_mat n k Q -> 0 < n -> 0 < k -> ok_weight n W -> w_symmetric n W -> w_nonneg n W ->
  method_of_snapshots X th W Q = Ok (L, s, Rt) -> (forall lam, gram_eigs n k W Q lam -> forall a, a < k -> (0 < vget lam a)%R) ->
  length s < k /\ ~ (forall t l, t < n -> l < k -> mget Q t l = bsum (length s) (fun i => vget s i * (mget L t i * mget Rt i l))%R).
Proof.
  intros Hsp HQ Hn Hk HW Hsym Hnn Em Hp. destruct (C16_snapshots X th W Q n k L s Rt Hsp HQ Hn Hk HW Hsym Em) as (lam & m & Hg & Hpre & Hm & HL & Hs & HR & HO & HRo & Hsq & Hdec & HLe & Hres).
  assert (Hmk : m < k). { destruct (Nat.lt_ge_cases m k) as [|H]; auto. exfalso. pose proof (proj1 (Hpre (k - 1) ltac:(lia)) ltac:(lia)) as C. pose proof (Rmax_r th (Rabs (vget lam (k - 1)))). pose proof (Rle_abs (vget lam (k - 1))). lra. }
  split; [rewrite Hs; auto|]. intros C. assert (R0 : resid2 n k W Q L s Rt = 0%R).
  { unfold resid2. apply bsum_0. intros l Hl. rewrite (wip_ext n W _ (fun _ => 0%R) _ (fun _ => 0%R)) by (intros; rewrite <- C by auto; ring). unfold wip. apply bsum_0. intros. apply bsum_0. intros. ring. }
  rewrite Hres in R0. assert (0 < INR k)%R by (now apply lt_0_INR). apply Rmult_integral in R0. destruct R0 as [R0|R0]; [lra|].
  pose proof (bsum_nonneg_0 (k - m) (fun a => vget lam (m + a)) ltac:(intros; left; apply (Hp lam Hg); lia) R0 0 ltac:(lia)) as Z. cbv beta in Z. specialize (Hp lam Hg (m + 0) ltac:(lia)). lra.
Qed.
(* a single snapshot: no vector at all, and fit() raises IndexError *)
Lemma wip_pos1 n W Q : w_nonneg n W -> forall lam, gram_eigs n 1 W Q lam -> (0 <= vget lam 0)%R.
Proof.
  intros Hnn lam (_ & _ & E & Ho & Hd). specialize (Hd 0 0 ltac:(lia) ltac:(lia)). specialize (Ho 0 0 ltac:(lia) ltac:(lia)). cbn in Hd, Ho. specialize (Hnn (fun t => mget Q t 0)). unfold Rdiv in Hd. rewrite Rinv_1 in Hd.
  rewrite Rplus_0_l in Hd, Ho. rewrite Ho in Hd. lra.
Qed.
Lemma C16_one_snapshot X th W Q n L s Rt : eigh_spec (x_eigh X) -> is_mat n 1 Q -> 0 < n -> ok_weight n W -> w_symmetric n W -> 
  method_of_snapshots X th W Q = Ok (L, s, Rt) -> s = [].
Proof.
  intros Hsp HQ Hn HW Hsym Em. destruct (C16_snapshots X th W Q n 1 L s Rt Hsp HQ Hn ltac:(lia) HW Hsym Em) as (lam & m & Hg & Hpre & Hm & HL & Hs & _).
  destruct m as [|m]. { now apply length_zero_iff_nil. } exfalso. pose proof (proj1 (Hpre 0 ltac:(lia)) ltac:(lia)) as C. cbn in C.
  pose proof (Rmax_r th (Rabs (vget lam 0))). pose proof (Rle_abs (vget lam 0)). lra.
Qed.
Lemma C16_one_snapshot_fit X a mx th W nm p0 Q n : pod_init X a mx (SSnap th) W nm = Ok p0 -> eigh_spec (x_eigh X) -> is_mat n 1 Q -> 0 < n -> ok_weight n W -> w_symmetric n W ->
  (exists t, method_of_snapshots X th W Q = Ok t) -> exists q, pod_fit X (S2 Q) p0 = (q, Some IndexError).
Proof.
  intros E Hsp HQ Hn HW Hsym ([[L s] Rt] & Em). pose proof (C16_one_snapshot X th W Q n L s Rt Hsp HQ Hn HW Hsym Em) as ->. destruct (init_fields _ _ _ _ _ _ _ E) as (F1 & F2 & _ & F4 & _).
  unfold pod_fit. cbn [snap_mat]. cbv zeta. unfold pod_svd, engine. rewrite (F4 th eq_refl), F1, F2, Em. unfold store_svd. cbn. eauto.
Qed.

(* a fit with weights: the relative projection error is not the root of the residual energy *)
Definition wts : vec := [4; 1]%R.
Definition D2 : mat := map2 (fun row x => map (Rmult x) row) (eye 2) (map sqrt wts).
Definition mat_eq_dec (A B : mat) : {A = B} + {A <> B} := list_eq_dec (list_eq_dec Req_EM_T) A B.
Definition svdD (A : mat) : res (mat * vec * mat) := if mat_eq_dec A D2 then Ok (eye 2, [2; 1]%R, eye 2) else Err LinAlgError.
Lemma sqrt4 : sqrt 4 = 2%R. Proof. replace 4%R with (2 * 2)%R by ring. apply sqrt_square. lra. Qed.
Lemma D2_entries i j : i < 2 -> j < 2 -> mget D2 i j = if i =? j then vget [2; 1]%R i else 0%R.
Proof.
  intros Hi Hj. unfold D2. rewrite (mget_rowscale 2 2 (eye 2) (map sqrt wts) (fun x => x)) by (try apply is_mat_eye; try reflexivity; auto). rewrite mget_eye by auto.
  unfold vget, wts. destruct i as [|[|i]], j as [|[|j]]; cbn; try lia; rewrite ?sqrt4, ?sqrt_1; ring.
Qed.
Lemma eye_orth p i j : i < p -> j < p -> bsum p (fun t => mget (eye p) t i * mget (eye p) t j)%R = if i =? j then 1%R else 0%R.
Proof.
  intros Hi Hj. transitivity (bsum p (fun t => dlt t i * dlt t j)%R). { apply bsum_ext. intros t Ht. now rewrite !mget_eye by auto. } now rewrite (bsum_dlt p i (fun t => dlt t j)).
Qed.
Lemma svdD_spec : SpecLstsq.svd_spec svdD.
Proof.
  intros k d A Phi s Psi Hk Hd HA E. unfold svdD in E. destruct (mat_eq_dec A D2) as [->|]; [|discriminate]. injection E as <- <- <-.
  assert (HD : is_mat 2 2 D2) by (apply (is_mat_rowscale 2 2 (eye 2) (map sqrt wts) (fun x => x)); [apply is_mat_eye|reflexivity]).
  assert (k = 2). { rewrite <- (is_mat_len _ _ _ HA). exact (is_mat_len _ _ _ HD). } subst k. assert (d = 2). { rewrite <- (ncols_is_mat _ _ _ HA) by auto. rewrite (ncols_is_mat _ _ _ HD); auto. } subst d.
  cbn [Nat.min]. cbv zeta. split; [apply is_mat_eye|]. split; [reflexivity|]. split; [apply is_mat_eye|]. split; [intros; now apply eye_orth|]. split.
  { intros i j Hi Hj. rewrite <- (eye_orth 2 i j) by auto. apply bsum_ext. intros l Hl. rewrite !mget_eye by auto. now rewrite (Nat.eqb_sym i l), (Nat.eqb_sym j l). }
  split. { intros i Hi. destruct i as [|[|i]]; unfold vget; cbn; try lra; lia. } split. { intros i j Hij Hj. destruct i as [|[|i]], j as [|[|j]]; unfold vget; cbn; try lra; lia. }
  intros t l Ht Hl. rewrite D2_entries by auto. cbn [bsum]. rewrite !mget_eye by auto. destruct t as [|[|t]], l as [|[|l]]; try lia; unfold vget; cbn; ring.
Qed.
Definition podD : pod := mkpod None (CNum 1) false None (SCustom svdD) (Some (WDiag wts)) (Some (QDiag (map sqrt wts))) None None None None None None None None.
Lemma podD_init : pod_init noX (by_num 1) None (SCustom svdD) (Some (WDiag wts)) None = Ok podD.
Proof. unfold pod_init, wts. cbn. unfold rleb. destruct (Rle_dec 0 4); [|lra]. destruct (Rle_dec 0 1); [|lra]. reflexivity. Qed.
Lemma C15_weighted_refuted : exists X a sv W p0 Q q e s, pod_init X a None sv W None = Ok p0 /\ exact_solver X sv /\ spd_weight X W /\ pod_run X [OFit (S2 Q)] p0 = Some q /\
  p_svals q = Some s /\ p_res q = Some (lost s 1) /\ keeps q 1 /\ b_error (BPod q) (M Q) true = Ok e /\ (lost s 1 < Rsqr e)%R.
Proof.
  set (L' := map2 (fun row x => map (Rmult (/ x)) row) (eye 2) (map sqrt wts)).
  assert (HL' : is_mat 2 2 L') by (apply (is_mat_rowscale 2 2 (eye 2) (map sqrt wts) (fun x => / x)%R); [apply is_mat_eye|reflexivity]).
  assert (Ev : pod_svd noX podD 2 (eye 2) = Ok (L', [2; 1]%R, eye 2)).
  { unfold pod_svd. cbn [p_sqrtw podD]. change (nrows (eye 2) =? sqw_len (QDiag (map sqrt wts))) with true. cbn [negb sqw_mul bind]. unfold engine. cbn [p_solver podD]. unfold svdD. fold D2.
    destruct (mat_eq_dec D2 D2); [|contradiction]. cbn [bind sqw_solve]. unfold wts. cbn [map forallb]. unfold isnz. rewrite sqrt4, sqrt_1. destruct (Req_EM_T 2 0); [lra|]. destruct (Req_EM_T 1 0); [lra|]. cbn [andb bind].
    unfold L', wts. cbn [map]. rewrite sqrt4, sqrt_1. reflexivity. }
  assert (Hd : decreasing [2; 1]%R) by (intros i j Hij Hj; cbn in Hj; destruct i as [|[|i]], j as [|[|j]]; unfold vget; cbn; try lra; lia).
  assert (Ns : normalized [2; 1]%R = Ok s2). { unfold normalized. rewrite sort_id by auto. destruct (Req_EM_T 2 0); [lra|]. unfold s2. cbn. f_equal. f_equal; [field|]. f_equal. field. }
  destruct (fit_ok noX (S2 (eye 2)) podD (eye 2) L' [2; 1]%R (eye 2) s2 2 2 eq_refl Ev HL' ltac:(lia) Ns ltac:(reflexivity) ltac:(cbn; lia)) as (q & E & S & D & EL).
  change (Nat.min (keep_of podD (eye 2)) 2) with 2 in S. change (keep_of podD (eye 2)) with 2 in EL. assert (Er : pod_run noX [OFit (S2 (eye 2))] podD = Some q) by (cbn [pod_run pod_step]; now rewrite E).
  pose proof (C13_num noX 1 q s2 2 2 D S ltac:(lia)) as K. change (Nat.min (Z.to_nat 1) 2) with 1 in K.
  destruct (dimensioned_keeps noX _ q s2 2 2 D S) as (_ & _ & _ & Hres). { intros z Ez. injection Ez as <-. lia. } 
  assert (Hlost : lost s2 1 = (1 - kept s2 1)%R) by (apply kept_lost; [rewrite s2_tot; lra|cbn; lia]). change (p_res q = Some (1 - kept s2 1)%R) in Hres. rewrite <- Hlost in Hres.
  assert (HW : p_weights q = Some (WDiag wts)). { pose proof (run_static _ _ _ _ Er) as T. injection T; auto. }
  set (A := map (firstn 1) (mcols 0 2 L')). assert (HA : basis_of 2 1 (Some (WDiag wts)) A (BPod q)).
  { split; [lia|]. split; [lia|]. split. { apply (is_mat_firstn 2 2); [|lia]. exact (mcols_is_mat 2 2 2 L' HL'). } split; [reflexivity|]. split; [|exact HW].
    destruct K as (L1 & I1 & _ & _ & I4). rewrite EL in I1. injection I1 as <-. exact I4. }
  assert (GA : forall i, i < 2 -> mget A i 0 = if i =? 0 then (/ 2)%R else 0%R).
  { intros i Hi. unfold A. rewrite mget_firstn, mget_mcols0 by lia. unfold L'. rewrite (mget_rowscale 2 2 (eye 2) (map sqrt wts) (fun x => / x)%R) by (try apply is_mat_eye; try reflexivity; auto). rewrite mget_eye by auto.
    unfold vget, wts. destruct i as [|[|i]]; cbn; try lia; rewrite ?sqrt4; ring. }
  destruct (b_error_ok 2 1 2 _ A (BPod q) (M (eye 2)) HA (is_mat_eye 2)) as (P & EP & SP & _ & Eb & _).
  destruct (b_project_ok 2 1 2 _ A (BPod q) (M (eye 2)) HA (is_mat_eye 2)) as (y & P' & _ & _ & EP' & _ & _ & _ & _ & G1 & G2). rewrite EP in EP'. injection EP' as <-.
  assert (GP : forall i j, i < 2 -> j < 2 -> aget P i j = if (i =? 0) && (j =? 0) then 1%R else 0%R).
  { intros i j Hi Hj. rewrite G2 by auto. unfold span. cbn [bsum]. rewrite G1, GA by auto. rewrite wip_diag. cbn [bsum aget]. rewrite !GA, !mget_eye by auto. unfold vget, wts. destruct i as [|[|i]], j as [|[|j]]; try lia; cbn; field. }
  assert (Nd : anorm2 2 2 (fun i j => aget (M (eye 2)) i j - aget P i j)%R = 1%R). { unfold anorm2. cbn [bsum]. rewrite !GP by lia. cbn [aget]. rewrite !mget_eye by lia. cbn. ring. }
  assert (Nf : fro (M (eye 2)) = sqrt 2). { rewrite (fro_sqrt 2 2) by apply is_mat_eye. f_equal. unfold anorm2. cbn [bsum aget]. rewrite !mget_eye by lia. cbn. ring. }
  rewrite Nd, Nf, sqrt_1 in Eb. assert (S2p : (0 < sqrt 2)%R) by (apply sqrt_lt_R0; lra). specialize (Eb ltac:(lra)).
  exists noX, (by_num 1), (SCustom svdD), (Some (WDiag wts)), podD, (eye 2), q, (1 / sqrt 2)%R, s2. split; [apply podD_init|]. split; [apply svdD_spec|]. split; [exact I|]. split; [exact Er|].
  split. { destruct S as (? & S1 & _). exact S1. } split; [exact Hres|]. split; [exact K|]. split; [exact Eb|].
  rewrite s2_lost1. rewrite Rsqr_div'. rewrite Rsqr_sqrt by lra. unfold Rsqr. lra.
Qed.

(* BasisProofs.v -- compress, decompress, project: entries, round trip, best approximation, locations. *)
From Verif Require Import LinAlg MatAlg EckartYoung LinSys PreProofs PreLocs PreFinal SpecBasis.
From Coq Require Import Lra Lia Psatz.
#[local] Open Scope nat_scope.

Lemma wget_delta i j : wget None i j = dlt i j. Proof. reflexivity. Qed.
Lemma wip_dlt n x y : wip n None x y = bsum n (fun i => x i * y i)%R.
Proof.
  unfold wip. apply bsum_ext. intros i Hi. rewrite <- (bsum_dlt' n i (fun j => x i * y j)%R Hi).
  apply bsum_ext. intros j Hj. rewrite wget_delta. ring.
Qed.
Lemma aget_ext n k a b : shaped n k a -> shaped n k b -> same_kind a b -> (forall i j, i < n -> j < k -> aget a i j = aget b i j) -> a = b.
Proof.
  destruct a as [u|A], b as [v|B]; cbn [shaped same_kind aget]; try tauto.
  - intros [Hu ->] [Hv _] _ H. f_equal. apply (vec_ext n); auto. intros i Hi. apply (H i 0); auto.
  - intros HA HB _ H. f_equal. apply (mat_ext n k); auto.
Qed.
Lemma shaped_alen n k a : shaped n k a -> alen a = n.
Proof. destruct a; cbn; [now intros [H _]|now intros [H _]]. Qed.
Lemma same_kind_refl a : same_kind a a. Proof. now destruct a. Qed.
Lemma same_kind_sym a b : same_kind a b -> same_kind b a. Proof. destruct a, b; cbn; auto. Qed.
Lemma same_kind_trans a b c : same_kind a b -> same_kind b c -> same_kind a c. Proof. destruct a, b, c; cbn; tauto. Qed.

(* A @ a *)
Lemma matdot_ok n m k A a : 0 < n -> 0 < m -> is_mat n m A -> shaped m k a ->
  exists b, matdot A a = Ok b /\ shaped n k b /\ same_kind a b /\ forall i j, i < n -> j < k -> aget b i j = bsum m (fun l => mget A i l * aget a l j)%R.
Proof.
  intros Hn Hm HA Ha. destruct a as [v|B]; cbn [shaped] in Ha.
  - destruct Ha as [Hv ->]. exists (V (matvec A v)). cbn [matdot]. unfold matvec_r. rewrite (ncols_is_mat n m A HA Hn), Hv, Nat.eqb_refl.
    repeat split; auto. { eapply is_vec_matvec; eauto. } intros i j Hi _. cbn [aget]. rewrite (vget_matvec n m) by auto.
    reflexivity.
  - exists (M (matmul A B)). cbn [matdot]. unfold matmul_r. rewrite (ncols_is_mat n m A HA Hn). unfold nrows. rewrite (is_mat_len m k B Ha), Nat.eqb_refl.
    split; [reflexivity|]. split; [now apply (is_mat_matmul n m k)|]. split; [exact I|].
    intros i j Hi Hj. cbn [aget]. now rewrite (mget_matmul n m k).
Qed.
Lemma aget_rowop n k w a i j : is_vec n w -> shaped n k a -> i < n -> j < k -> aget (rowop Rmult w a) i j = (aget a i j * vget w i)%R.
Proof.
  intros Hw Ha Hi Hj. destruct a as [v|A]; cbn [shaped rowop aget] in *.
  - destruct Ha as [Hv ->]. unfold vget. rewrite (map2_nth Rmult v w i 0%R 0%R 0%R); unfold is_vec in *; try lia. reflexivity.
  - unfold mget. pose proof (is_mat_len _ _ _ Ha). unfold is_vec in *.
    rewrite (map2_nth _ A w i [] 0%R []) by lia. rewrite (nth_map_in _ _ _ _ 0%R); [reflexivity|].
    rewrite (is_mat_row n k A i Ha Hi). exact Hj.
Qed.
Lemma shaped_rowop n k w a : is_vec n w -> shaped n k a -> shaped n k (rowop Rmult w a) /\ same_kind a (rowop Rmult w a).
Proof.
  intros Hw Ha. destruct a as [v|A]; cbn [shaped rowop same_kind] in *.
  - destruct Ha as [Hv ->]. repeat split; auto. unfold is_vec in *. rewrite map2_length. lia.
  - split; [|exact I]. destruct Ha as [H1 H2]. split. { rewrite map2_length. unfold is_vec in *. lia. }
    apply Forall_nth. intros i d Hi. rewrite map2_length in Hi. unfold is_vec in Hw.
    rewrite (map2_nth _ A w i d 0%R d) by lia. rewrite map_length. rewrite Forall_nth in H2. apply H2. lia.
Qed.
Lemma wmul_ok n k W a : 0 < n -> ok_weight n W -> shaped n k a ->
  exists b, wmul_opt W a = Ok b /\ shaped n k b /\ same_kind a b /\ forall i j, i < n -> j < k -> aget b i j = bsum n (fun l => wget W i l * aget a l j)%R.
Proof.
  intros Hn HW Ha. destruct W as [[w|A]|]; cbn [wmul_opt wmul ok_weight] in *.
  - rewrite (shaped_alen n k a Ha). rewrite HW, Nat.eqb_refl. exists (rowop Rmult w a). destruct (shaped_rowop n k w a HW Ha) as [H1 H2].
    repeat split; auto. intros i j Hi Hj. rewrite (aget_rowop n k) by auto.
    rewrite <- (bsum_dlt' n i (fun l => aget a l j * vget w i)%R Hi). apply bsum_ext. intros l Hl. cbn [wget]. unfold dlt.
    destruct (Nat.eqb_spec i l) as [->|]; ring.
  - destruct (matdot_ok n n k A a Hn Hn HW Ha) as (b & ? & ? & ? & ?). exists b. repeat split; auto.
  - exists a. repeat split; auto. { apply same_kind_refl. } intros i j Hi Hj. rewrite <- (bsum_dlt' n i (fun l => aget a l j) Hi).
    reflexivity.
Qed.
Lemma dot_at_ok n r k A q : 0 < r -> is_mat n r A -> shaped r k q ->
  exists x, dot_at r A q = Ok x /\ shaped n k x /\ same_kind q x /\ forall i j, i < n -> j < k -> aget x i j = span r A (fun b => aget q b j) i.
Proof.
  intros Hr HA Hq. destruct q as [v|B]; cbn [shaped dot_at] in *.
  - destruct Hq as [Hv ->]. rewrite Hv, Nat.eqb_refl. exists (V (matvec A v)). repeat split; auto. { eapply is_vec_matvec; eauto. }
    intros i j Hi _. cbn [aget]. now rewrite (vget_matvec n r).
  - rewrite (is_mat_len _ _ _ Hq), Nat.eqb_refl. exists (M (matmul A B)). split; [reflexivity|]. split; [now apply (is_mat_matmul n r k)|].
    split; [exact I|]. intros i j Hi Hj. cbn [aget]. now rewrite (mget_matmul n r k).
Qed.
Lemma lin_compress_ok n r k W A a : 0 < n -> 0 < r -> is_mat n r A -> ok_weight n W -> shaped n k a ->
  exists q, lin_compress (Some A) W a = Ok q /\ shaped r k q /\ same_kind a q /\
  forall b j, b < r -> j < k -> aget q b j = wip n W (fun i => mget A i b) (fun l => aget a l j).
Proof.
  intros Hn Hr HA HW Ha. destruct (wmul_ok n k W a Hn HW Ha) as (wa & E1 & S1 & K1 & G1).
  destruct (dot_at_ok r n k (mT A) wa Hn (is_mat_mT n r A HA Hn) S1) as (q & E2 & S2 & K2 & G2).
  exists q. unfold lin_compress. cbn [need bind]. rewrite E1. cbn [bind]. unfold nrows. rewrite (is_mat_len _ _ _ HA), E2. repeat split; auto.
  { eapply same_kind_trans; eauto. }
  intros b j Hb Hj. rewrite G2 by auto. unfold wip. apply bsum_ext. intros i Hi. rewrite (mget_mT n r) by auto. rewrite G1 by auto.
  rewrite <- bsum_scal_l. apply bsum_ext. intros l Hl. ring.
Qed.
Lemma lin_decompress_ok n r k A q : 0 < n -> 0 < r -> is_mat n r A -> shaped r k q ->
  exists x, lin_decompress (Some A) q None = Ok x /\ shaped n k x /\ same_kind q x /\ forall i j, i < n -> j < k -> aget x i j = span r A (fun b => aget q b j) i.
Proof.
  intros Hn Hr HA Hq. destruct (dot_at_ok n r k A q Hr HA Hq) as (x & E & H). exists x. unfold lin_decompress. cbn [need bind].
  rewrite (ncols_is_mat n r A HA Hn). auto.
Qed.

(* ---- through the objects -------------------------------------------------------------------------------- *)
Lemma b_compress_lin b A W a : b_entries b = Some A -> b_weights b = W -> b_compress b a = lin_compress (Some A) W a.
Proof. destruct b as [l|p]; cbn; intros H1 H2. { now inversion H1; subst. } unfold pod_compress. now rewrite H1, H2. Qed.
Lemma b_decompress_lin b A q l : b_entries b = Some A -> b_decompress b q l = lin_decompress (Some A) q l.
Proof. destruct b as [x|p]; cbn; intros H1. { now inversion H1; subst. } unfold pod_decompress. now rewrite H1. Qed.
Lemma b_compress_ok n r k W A b a : basis_of n r W A b -> shaped n k a ->
  exists q, b_compress b a = Ok q /\ shaped r k q /\ same_kind a q /\
  forall c j, c < r -> j < k -> aget q c j = wip n W (fun i => mget A i c) (fun l => aget a l j).
Proof.
  intros (Hn & Hr & HA & HW & E1 & E2) Ha. rewrite (b_compress_lin b A W a E1 E2). now apply lin_compress_ok.
Qed.
Lemma b_decompress_ok n r k W A b q : basis_of n r W A b -> shaped r k q ->
  exists x, b_decompress b q None = Ok x /\ shaped n k x /\ same_kind q x /\ forall i j, i < n -> j < k -> aget x i j = span r A (fun c => aget q c j) i.
Proof.
  intros (Hn & Hr & HA & HW & E1 & E2) Hq. rewrite (b_decompress_lin b A q None E1). now apply lin_decompress_ok.
Qed.
Lemma wip_ext n W x x' y y' : (forall i, i < n -> x i = x' i) -> (forall i, i < n -> y i = y' i) -> wip n W x y = wip n W x' y'.
Proof. intros H1 H2. unfold wip. apply bsum_ext. intros i Hi. apply bsum_ext. intros j Hj. now rewrite H1, H2. Qed.
Lemma wip_comb_r n r W x A y : wip n W x (span r A y) = bsum r (fun b => wip n W x (fun i => mget A i b) * y b)%R.
Proof.
  unfold wip, span.
  transitivity (bsum n (fun i => bsum r (fun b => bsum n (fun j => x i * wget W i j * mget A j b) * y b)%R)).
  { apply bsum_ext. intros i Hi. transitivity (bsum n (fun j => bsum r (fun b => x i * wget W i j * mget A j b * y b)%R)).
    { apply bsum_ext. intros j Hj. rewrite <- bsum_scal_l. apply bsum_ext. intros. ring. }
    rewrite bsum_swap. apply bsum_ext. intros b Hb. now rewrite bsum_scal_r. }
  rewrite bsum_swap. apply bsum_ext. intros b Hb. now rewrite bsum_scal_r.
Qed.
Lemma wip_span n r W A a y : w_orthonormal n r W A -> a < r -> wip n W (fun i => mget A i a) (span r A y) = y a.
Proof.
  intros H Ha. rewrite wip_comb_r. rewrite <- (bsum_dlt' r a y Ha). apply bsum_ext. intros b Hb. now rewrite H by auto.
Qed.

Lemma C09_round n r k W A b q : basis_of n r W A b -> w_orthonormal n r W A -> shaped r k q ->
  exists x, b_decompress b q None = Ok x /\ shaped n k x /\ b_compress b x = Ok q.
Proof.
  intros Hb Ho Hq. destruct (b_decompress_ok n r k W A b q Hb Hq) as (x & E & Sx & Kx & G). exists x. repeat split; auto.
  destruct (b_compress_ok n r k W A b x Hb Sx) as (q' & E' & Sq' & Kq' & G'). rewrite E'. f_equal.
  apply (aget_ext r k); auto. { eapply same_kind_trans; apply same_kind_sym; eauto. }
  intros c j Hc Hj. rewrite G' by auto.
  rewrite (wip_ext n W _ (fun i => mget A i c) _ (span r A (fun b => aget q b j))); auto.
  now rewrite (wip_span n r W A c (fun b => aget q b j) Ho Hc).
Qed.
Lemma b_project_ok n r k W A b a : basis_of n r W A b -> shaped n k a ->
  exists q p, b_compress b a = Ok q /\ b_decompress b q None = Ok p /\ b_project b a = Ok p /\ shaped r k q /\ shaped n k p /\ same_kind a p /\ same_kind a q /\
  (forall c j, c < r -> j < k -> aget q c j = wip n W (fun i => mget A i c) (fun l => aget a l j)) /\
  (forall i j, i < n -> j < k -> aget p i j = span r A (fun c => aget q c j) i).
Proof.
  intros Hb Ha. destruct (b_compress_ok n r k W A b a Hb Ha) as (q & E & Sq & Kq & G).
  destruct (b_decompress_ok n r k W A b q Hb Sq) as (p & E2 & Sp & Kp & G2). exists q, p. unfold b_project, project. rewrite E. cbn [bind].
  repeat split; auto. eapply same_kind_trans; eauto.
Qed.
Lemma C09_idem n r k W A b a : basis_of n r W A b -> w_orthonormal n r W A -> shaped n k a ->
  exists p, b_project b a = Ok p /\ shaped n k p /\ b_project b p = Ok p.
Proof.
  intros Hb Ho Ha. destruct (b_project_ok n r k W A b a Hb Ha) as (q & p & E1 & E2 & E3 & Sq & Sp & _).
  exists p. repeat split; auto. unfold b_project, project. destruct (C09_round n r k W A b q Hb Ho Sq) as (x & F1 & _ & F2).
  rewrite E2 in F1. injection F1 as <-. rewrite F2. exact E2.
Qed.
Lemma aget_acomb n k a h d i j : shaped n k a -> shaped n k d -> same_kind a d -> i < n -> j < k -> aget (acomb a h d) i j = (aget a i j + h * aget d i j)%R.
Proof.
  destruct a as [u|A], d as [v|B]; cbn [shaped same_kind acomb aget]; try tauto.
  - intros [Hu ->] [Hv _] _ Hi _. unfold vget, is_vec in *. now rewrite (map2_nth _ u v i 0%R 0%R 0%R) by lia.
  - intros HA HB _ Hi Hj. unfold mget. pose proof (is_mat_len _ _ _ HA). pose proof (is_mat_len _ _ _ HB).
    rewrite (map2_nth _ A B i [] [] []) by lia. pose proof (is_mat_row n k A i HA Hi) as L1. pose proof (is_mat_row n k B i HB Hi) as L2. unfold is_vec in *.
    now rewrite (map2_nth _ _ _ j 0%R 0%R 0%R) by lia.
Qed.
Lemma shaped_acomb n k a h d : shaped n k a -> shaped n k d -> same_kind a d -> shaped n k (acomb a h d) /\ same_kind a (acomb a h d).
Proof.
  destruct a as [u|A], d as [v|B]; cbn [shaped same_kind acomb]; try tauto.
  - intros [Hu ->] [Hv _] _. unfold is_vec in *. rewrite map2_length. repeat split; auto. lia.
  - intros HA HB _. split; auto. destruct HA as [H1 H2], HB as [H3 H4]. split. { rewrite map2_length. lia. }
    apply Forall_nth. intros i d Hi. rewrite map2_length in Hi. rewrite (map2_nth _ A B i [] [] d) by lia. rewrite map2_length.
    rewrite Forall_nth in H2, H4. rewrite (H2 i [] ltac:(lia)), (H4 i [] ltac:(lia)). lia.
Qed.
Lemma wip_lin n W x y h z : wip n W x (fun l => y l + h * z l)%R = (wip n W x y + h * wip n W x z)%R.
Proof.
  unfold wip. rewrite <- bsum_scal_l, <- bsum_plus. apply bsum_ext. intros i Hi. rewrite <- bsum_scal_l, <- bsum_plus. apply bsum_ext. intros. ring.
Qed.
Lemma span_lin r A y h z i : span r A (fun c => y c + h * z c)%R i = (span r A y i + h * span r A z i)%R.
Proof. unfold span. rewrite <- bsum_scal_l, <- bsum_plus. apply bsum_ext. intros. ring. Qed.
Lemma C09_lin n r k W A b a d h : basis_of n r W A b -> shaped n k a -> shaped n k d -> same_kind a d ->
  exists pa pd, b_project b a = Ok pa /\ b_project b d = Ok pd /\ b_project b (acomb a h d) = Ok (acomb pa h pd).
Proof.
  intros Hb Ha Hd Hk. destruct (b_project_ok n r k W A b a Hb Ha) as (q & p & _ & _ & E & Sq & Sp & Kp & Kq & G1 & G2).
  destruct (b_project_ok n r k W A b d Hb Hd) as (q' & p' & _ & _ & E' & Sq' & Sp' & Kp' & Kq' & G1' & G2').
  destruct (shaped_acomb n k a h d Ha Hd Hk) as [S3 K3].
  destruct (b_project_ok n r k W A b (acomb a h d) Hb S3) as (q3 & p3 & _ & _ & E3 & Sq3 & Sp3 & Kp3 & Kq3 & G13 & G23).
  exists p, p'. repeat split; auto. rewrite E3. f_equal.
  assert (Kpp : same_kind p p'). { apply (same_kind_trans _ a); [now apply same_kind_sym|]. now apply (same_kind_trans _ d). }
  destruct (shaped_acomb n k p h p' Sp Sp' Kpp) as [S4 K4]. apply (aget_ext n k); auto.
  { apply (same_kind_trans _ (acomb a h d)); [now apply same_kind_sym|]. apply (same_kind_trans _ a); [now apply same_kind_sym|]. now apply (same_kind_trans _ p). }
  intros i j Hi Hj. rewrite (aget_acomb n k) by auto. rewrite G23, G2, G2' by auto. rewrite <- span_lin. unfold span. apply bsum_ext. intros c Hc.
  f_equal. rewrite G13, G1, G1' by auto. rewrite <- wip_lin. apply wip_ext; auto. intros l Hl. now apply (aget_acomb n k).
Qed.

(* ---- the warning --------------------------------------------------------------------------------------- *)
Lemma gram_ok n r W A : 0 < n -> 0 < r -> is_mat n r A -> ok_weight n W ->
  exists G, gram A W = Ok G /\ is_mat r r G /\ forall a b, a < r -> b < r -> mget G a b = wip n W (fun i => mget A i a) (fun i => mget A i b).
Proof.
  intros Hn Hr HA HW. unfold gram. destruct (wmul_ok n r W (M A) Hn HW HA) as (wa & E1 & S1 & K1 & G1). rewrite E1. cbn [bind].
  destruct (dot_at_ok r n r (mT A) wa Hn (is_mat_mT n r A HA Hn) S1) as (G & E2 & S2 & K2 & G2). unfold nrows. rewrite (is_mat_len _ _ _ HA), E2. cbn [bind].
  destruct wa as [v|B]; [now cbn in K1|]. destruct G as [v|G]; [now cbn in K2|]. exists G. cbn [shaped aget] in *. repeat split; try apply S2.
  intros a b Ha Hb. rewrite G2 by auto. unfold wip. apply bsum_ext. intros i Hi. rewrite (mget_mT n r) by auto. rewrite G1 by auto. rewrite <- bsum_scal_l. apply bsum_ext. intros. ring.
Qed.
Lemma not_orthogonal_iff n r W A : 0 < n -> 0 < r -> is_mat n r A -> ok_weight n W ->
  exists w, not_orthogonal A W = Ok w /\
  (w = false <-> forall a b, a < r -> b < r -> let t := if a =? b then 1%R else 0%R in
                 (Rabs (wip n W (fun i => mget A i a) (fun i => mget A i b) - t) <= / 10 ^ 8 + / 10 ^ 5 * t)%R).
Proof.
  intros Hn Hr HA HW. destruct (gram_ok n r W A Hn Hr HA HW) as (G & E & HG & HGe). unfold not_orthogonal. rewrite E. cbn [bind].
  eexists. split; [reflexivity|]. rewrite (ncols_is_mat n r A HA Hn). unfold allclose. rewrite (ncols_is_mat r r G HG Hr). unfold nrows. rewrite (is_mat_len _ _ _ HG).
  rewrite Bool.negb_false_iff, forallb_forall. split.
  - intros H a b Ha Hb. set (t := if a =? b then 1%R else 0%R). specialize (H a ltac:(apply in_seq; lia)). rewrite forallb_forall in H. specialize (H b ltac:(apply in_seq; lia)).
    unfold rleb in H. destruct (Rle_dec _ _) as [L|]; [|discriminate]. rewrite HGe, mget_eye in L by auto. fold t in L.
    rewrite (Rabs_pos_eq t) in L; [exact L|]. unfold t. destruct (a =? b); lra.
  - intros H a Ha. apply in_seq in Ha. apply forallb_forall. intros b Hb. apply in_seq in Hb. specialize (H a b ltac:(lia) ltac:(lia)). cbv zeta in H.
    unfold rleb. destruct (Rle_dec _ _) as [L|L]; [reflexivity|]. exfalso. apply L. rewrite HGe, mget_eye by lia.
    rewrite (Rabs_pos_eq (if a =? b then 1 else 0)%R); [exact H|]. destruct (a =? b); lra.
Qed.
Lemma C09_no_warning n r W A : 0 < n -> 0 < r -> is_mat n r A -> ok_weight n W -> w_orthonormal n r W A -> not_orthogonal A W = Ok false.
Proof.
  intros Hn Hr HA HW Ho. destruct (not_orthogonal_iff n r W A Hn Hr HA HW) as (w & E & H). rewrite E. f_equal. apply H. intros a b Ha Hb t.
  rewrite Ho by auto. fold t. rewrite Rminus_diag_eq by reflexivity. rewrite Rabs_R0. unfold t. destruct (a =? b); lra.
Qed.

(* ---- best approximation ---------------------------------------------------------------------------------- *)
Lemma wip_minus_r n W x y z : wip n W x (fun l => y l - z l)%R = (wip n W x y - wip n W x z)%R.
Proof. unfold wip. rewrite <- bsum_minus. apply bsum_ext. intros i Hi. rewrite <- bsum_minus. apply bsum_ext. intros. ring. Qed.
Lemma wip_plus_r n W x y z : wip n W x (fun l => y l + z l)%R = (wip n W x y + wip n W x z)%R.
Proof. unfold wip. rewrite <- bsum_plus. apply bsum_ext. intros i Hi. rewrite <- bsum_plus. apply bsum_ext. intros. ring. Qed.
Lemma wip_sym n W x y : w_symmetric n W -> wip n W x y = wip n W y x.
Proof. intros H. unfold wip. rewrite bsum_swap. apply bsum_ext. intros i Hi. apply bsum_ext. intros j Hj. rewrite (H i j) by auto. ring. Qed.
Lemma C10_orth n r k W A b a : basis_of n r W A b -> w_orthonormal n r W A -> shaped n k a ->
  exists p, b_project b a = Ok p /\ shaped n k p /\
  forall c j, c < r -> j < k -> wip n W (fun i => mget A i c) (fun i => aget a i j - aget p i j)%R = 0%R.
Proof.
  intros Hb Ho Ha. destruct (b_project_ok n r k W A b a Hb Ha) as (q & p & _ & _ & E & Sq & Sp & Kp & Kq & G1 & G2).
  exists p. repeat split; auto. intros c j Hc Hj. rewrite wip_minus_r.
  rewrite (wip_ext n W _ (fun i => mget A i c) (fun i => aget p i j) (span r A (fun b => aget q b j))); auto.
  rewrite wip_span by auto. rewrite G1 by auto. ring.
Qed.
Lemma C10_best n r k W A b a : basis_of n r W A b -> w_orthonormal n r W A -> w_symmetric n W -> w_nonneg n W -> shaped n k a ->
  exists p, b_project b a = Ok p /\ shaped n k p /\ (exists y, forall i j, i < n -> j < k -> aget p i j = span r A (y j) i) /\
  forall j y, j < k ->
    (wip n W (fun i => aget a i j - aget p i j) (fun i => aget a i j - aget p i j)
     <= wip n W (fun i => aget a i j - span r A y i) (fun i => aget a i j - span r A y i))%R.
Proof.
  intros Hb Ho Hs Hp Ha. destruct (C10_orth n r k W A b a Hb Ho Ha) as (p & E & Sp & Horth).
  destruct (b_project_ok n r k W A b a Hb Ha) as (q & p' & _ & _ & E' & Sq & _ & _ & _ & G1 & G2). rewrite E in E'. injection E' as <-.
  exists p. repeat split; auto. { exists (fun j c => aget q c j). auto. }
  intros j y Hj. set (e := fun i => (aget a i j - aget p i j)%R). set (d := span r A (fun c => aget q c j - y c)%R).
  assert (D : forall i, i < n -> (aget a i j - span r A y i)%R = (e i + d i)%R).
  { intros i Hi. unfold e, d. rewrite G2 by auto. replace (fun c => (aget q c j - y c)%R) with (fun c => (aget q c j + (-1) * y c)%R).
    { rewrite span_lin. ring. } apply FunctionalExtensionality.functional_extensionality. intros. ring. }
  rewrite (wip_ext n W (fun i => aget a i j - span r A y i)%R (fun i => e i + d i)%R (fun i => aget a i j - span r A y i)%R (fun i => e i + d i)%R D D).
  rewrite wip_plus_r. rewrite (wip_sym n W (fun i => e i + d i)%R e Hs), (wip_sym n W (fun i => e i + d i)%R d Hs), !wip_plus_r.
  assert (Z : wip n W e d = 0%R). { unfold d. rewrite wip_comb_r. apply bsum_0. intros c Hc. rewrite (wip_sym n W e) by auto. unfold e. rewrite Horth by auto. ring. }
  rewrite (wip_sym n W d e Hs), Z. fold e. pose proof (Hp d). lra.
Qed.

(* norms *)
Definition anorm2 (n k : nat) (f : nat -> nat -> R) : R := bsum n (fun i => bsum k (fun j => f i j * f i j))%R.
Lemma fro_sqrt n k a : shaped n k a -> fro a = sqrt (anorm2 n k (aget a)).
Proof.
  destruct a as [v|A]; cbn [shaped fro aget]; intros H.
  - destruct H as [Hv ->]. f_equal. rewrite (vnorm2_bsum n v Hv). unfold anorm2. apply bsum_ext. intros i Hi. cbn [bsum aget]. ring.
  - f_equal. now rewrite (mnorm2_bsum n k A H).
Qed.
Lemma anorm2_nonneg n k f : (0 <= anorm2 n k f)%R.
Proof. unfold anorm2. apply bsum_nonneg. intros. apply bsum_nonneg. intros. apply Rle_0_sqr. Qed.
Lemma anorm2_ext n k f g : (forall i j, i < n -> j < k -> f i j = g i j) -> anorm2 n k f = anorm2 n k g.
Proof. intros H. unfold anorm2. apply bsum_ext. intros. apply bsum_ext. intros. now rewrite H. Qed.
Lemma anorm2_0 n k f : anorm2 n k f = 0%R -> forall i j, i < n -> j < k -> f i j = 0%R.
Proof.
  intros H i j Hi Hj. unfold anorm2 in H.
  pose proof (bsum_nonneg_0 n _ ltac:(intros; apply bsum_nonneg; intros; apply Rle_0_sqr) H i Hi) as H1. cbv beta in H1.
  pose proof (bsum_nonneg_0 k _ ltac:(intros; apply Rle_0_sqr) H1 j Hj) as H2. now apply Rsqr_0_uniq.
Qed.
Lemma asub_ok n k a b : shaped n k a -> shaped n k b -> same_kind a b -> 0 < n ->
  exists d, asub a b = Ok d /\ shaped n k d /\ forall i j, i < n -> j < k -> aget d i j = (aget a i j - aget b i j)%R.
Proof.
  intros Ha Hb Hk Hn. destruct a as [u|A], b as [v|B]; cbn [shaped same_kind asub aget] in *; try tauto.
  - destruct Ha as [Hu ->], Hb as [Hv _]. rewrite Hu, Hv, Nat.eqb_refl. exists (V (vsub u v)). split; auto. split; [split; auto; now apply is_vec_vsub|].
    intros i j Hi _. now apply (vget_vsub n).
  - unfold nrows. rewrite (is_mat_len _ _ _ Ha), (is_mat_len _ _ _ Hb), (ncols_is_mat n k A Ha Hn), (ncols_is_mat n k B Hb Hn), !Nat.eqb_refl.
    exists (M (msub A B)). split; auto. split; [now apply is_mat_msub|]. intros i j Hi Hj. now apply (mget_msub n k).
Qed.
Lemma b_error_ok n r k W A b a : basis_of n r W A b -> shaped n k a ->
  exists p, b_project b a = Ok p /\ shaped n k p /\
  b_error b a false = Ok (sqrt (anorm2 n k (fun i j => aget a i j - aget p i j)%R)) /\
  (fro a <> 0%R -> b_error b a true = Ok (sqrt (anorm2 n k (fun i j => aget a i j - aget p i j)%R) / fro a)%R) /\
  (fro a = 0%R -> b_error b a true = Err OtherError).
Proof.
  intros Hb Ha. destruct (b_project_ok n r k W A b a Hb Ha) as (q & p & _ & _ & E & _ & Sp & Kp & _). exists p. split; [exact E|]. split; [exact Sp|].
  unfold b_error, projection_error. fold (b_project b a). rewrite E. cbn [bind]. destruct Hb as (Hn & _).
  destruct (asub_ok n k a p Ha Sp Kp Hn) as (d & Ed & Sd & Gd). rewrite Ed. cbn [bind]. rewrite (fro_sqrt n k d Sd). rewrite (anorm2_ext n k _ _ Gd).
  split; [reflexivity|]. split; intros H; destruct (Req_EM_T (fro a) 0); tauto.
Qed.
Lemma C10_zero n r k W A b a : basis_of n r W A b -> w_orthonormal n r W A -> shaped n k a ->
  exists e, b_error b a false = Ok e /\ (0 <= e)%R /\ (e = 0%R <-> exists y, forall i j, i < n -> j < k -> aget a i j = span r A (y j) i).
Proof.
  intros Hb Ho Ha. destruct (b_error_ok n r k W A b a Hb Ha) as (p & E & Sp & E2 & _). eexists. split; [exact E2|]. split; [apply sqrt_pos|].
  destruct (b_project_ok n r k W A b a Hb Ha) as (q & p' & _ & _ & E' & Sq & _ & _ & _ & G1 & G2). rewrite E in E'. injection E' as <-. split.
  - intros H. apply sqrt_eq_0 in H; [|apply anorm2_nonneg]. exists (fun j c => aget q c j). intros i j Hi Hj.
    pose proof (anorm2_0 _ _ _ H i j Hi Hj) as H1. cbv beta in H1. rewrite <- G2 by auto. lra.
  - intros (y & Hy). assert (Z : anorm2 n k (fun i j => aget a i j - aget p i j)%R = 0%R).
    { unfold anorm2. apply bsum_0. intros i Hi. apply bsum_0. intros j Hj. assert (aget p i j = aget a i j).
      { rewrite G2, (Hy i j) by auto. unfold span. apply bsum_ext. intros c Hc. f_equal. rewrite G1 by auto.
        rewrite (wip_ext n W _ (fun i => mget A i c) _ (span r A (y j))); auto. now apply wip_span. }
      rewrite H. ring. }
    rewrite Z. apply sqrt_0.
Qed.
Lemma wip_none_anorm n k f : anorm2 n k f = bsum k (fun j => wip n None (fun i => f i j) (fun i => f i j)).
Proof. unfold anorm2. rewrite bsum_swap. apply bsum_ext. intros j Hj. now rewrite wip_dlt. Qed.
Lemma none_sym n : w_symmetric n None. Proof. intros i j _ _. cbn. now rewrite Nat.eqb_sym. Qed.
Lemma none_nonneg n : w_nonneg n None. Proof. intros x. rewrite wip_dlt. apply bsum_nonneg. intros. apply Rle_0_sqr. Qed.
Lemma C10_error_min n r k A b a : basis_of n r None A b -> w_orthonormal n r None A -> shaped n k a ->
  exists e, b_error b a false = Ok e /\ forall y : nat -> nat -> R,
    (e <= sqrt (bsum n (fun i => bsum k (fun j => Rsqr (aget a i j - span r A (y j) i)))))%R.
Proof.
  intros Hb Ho Ha. destruct (b_error_ok n r k None A b a Hb Ha) as (p & E & Sp & E2 & _). eexists. split; [exact E2|]. intros y.
  destruct (C10_best n r k None A b a Hb Ho (none_sym n) (none_nonneg n) Ha) as (p' & E' & _ & _ & Hmin). rewrite E in E'. injection E' as <-.
  apply sqrt_le_1_alt. change (bsum n (fun i => bsum k (fun j => Rsqr (aget a i j - span r A (y j) i)))) with (anorm2 n k (fun i j => aget a i j - span r A (y j) i)%R).
  rewrite !wip_none_anorm. apply bsum_le. intros j Hj. now apply Hmin.
Qed.

(* ---- locations --------------------------------------------------------------------------------------------- *)
Lemma slice_map {A B} (f : A -> B) i j l : slice i j (map f l) = map f (slice i j l).
Proof. unfold slice. now rewrite skipn_map, firstn_map. Qed.
Lemma py_slice_map {A B} (f : A -> B) s t l : py_slice s t (map f l) = map f (py_slice s t l).
Proof. unfold py_slice. rewrite map_length. apply slice_map. Qed.
Lemma py_slice_take {A} (d : A) s t l : py_slice s t l = take_at d l (py_slice s t (seq 0 (length l))).
Proof.
  unfold take_at. rewrite <- py_slice_map. f_equal. apply (list_ext d). { now rewrite map_length, seq_length. }
  intros i Hi. now rewrite nth_map_seq.
Qed.
Lemma norm_index_sel n z i : norm_index n z = Ok i <-> i < n /\ (z = Z.of_nat i \/ z = Z.of_nat i - Z.of_nat n)%Z.
Proof.
  split; [|intros [H1 H2]; now apply norm_index_ok]. unfold norm_index. destruct (Z.ltb_spec z 0); destruct ((_ <=? _) && _)%Z eqn:E; try discriminate;
  apply Bool.andb_true_iff in E; destruct E as [E1 E2]; apply Z.leb_le in E1; apply Z.ltb_lt in E2; intros H'; injection H' as <-; lia.
Qed.
Lemma mapM_norm_sel n zs idx : mapM (norm_index n) zs = Ok idx <-> Forall2 (fun z i => i < n /\ (z = Z.of_nat i \/ z = Z.of_nat i - Z.of_nat n)%Z) zs idx.
Proof.
  revert idx. induction zs as [|z zs IH]; intros idx; cbn [mapM].
  - split. { intros H. injection H as <-. constructor. } intros H. inversion H. reflexivity.
  - destruct (norm_index n z) as [i|e] eqn:E.
    + destruct (mapM (norm_index n) zs) as [l|e] eqn:E2.
      * split. { intros H. injection H as <-. constructor; [now apply norm_index_sel|now apply IH]. }
        intros H. inversion H; subst. apply norm_index_sel in H2. rewrite H2 in E. injection E as ->. apply IH in H4. now injection H4 as ->.
      * split; [discriminate|]. intros H. inversion H; subst. apply IH in H4. discriminate.
    + split; [discriminate|]. intros H. inversion H; subst. apply norm_index_sel in H2. congruence.
Qed.
Lemma rows_at_sel A l idx : selects (length A) l idx -> rows_at A l = Ok (take_at [] A idx).
Proof.
  destruct l as [zs|s]; cbn [selects rows_at]; intros H.
  - apply mapM_norm_sel in H. rewrite H. reflexivity.
  - f_equal. subst idx. apply py_slice_take.
Qed.
Lemma rows_at_bad A zs : (forall idx, ~ selects (length A) (LIdx zs) idx) -> rows_at A (LIdx zs) = Err IndexError.
Proof.
  intros H. cbn [rows_at]. destruct (mapM (norm_index (length A)) zs) as [idx|e] eqn:E.
  - exfalso. apply (H idx). cbn. now apply mapM_norm_sel.
  - cbn [bind]. f_equal. clear H. revert e E. induction zs as [|z zs IH]; cbn [mapM]; [discriminate|]. intros e.
    destruct (norm_index (length A) z) eqn:Ez.
    + destruct (mapM _ zs); [discriminate|]. intros H. injection H as <-. now apply IH.
    + intros H. injection H as <-. unfold norm_index in Ez. destruct (_ && _); congruence.
Qed.
Lemma take_map {A B} (f : A -> B) d d' l idx : Forall (fun i => i < length l) idx -> take_at d' (map f l) idx = map f (take_at d l idx).
Proof. intros H. unfold take_at. rewrite map_map. apply map_ext_Forall. eapply Forall_impl; [|exact H]. intros i Hi. now apply nth_map_in. Qed.
Lemma dot_at_take c A q idx x : Forall (fun i => i < length A) idx -> dot_at c A q = Ok x -> dot_at c (take_at [] A idx) q = Ok (asel idx x).
Proof.
  intros H. destruct q as [v|B]; cbn [dot_at].
  - destruct (_ =? _); [|discriminate]. intros E. injection E as <-. cbn [asel]. f_equal. f_equal. unfold matvec. now rewrite (take_map _ [] 0%R).
  - destruct (_ =? _); [|discriminate]. intros E. injection E as <-. cbn [asel]. f_equal. f_equal. unfold matmul. now rewrite (take_map _ [] []).
Qed.
Lemma selects_bounds n l idx : selects n l idx -> Forall (fun i => i < n) idx.
Proof. apply selects_lt. Qed.
Lemma C11_linear n r k W A b q l idx : basis_of n r W A b -> shaped r k q -> selects n l idx ->
  exists x, b_decompress b q None = Ok x /\ alen x = n /\ b_decompress b q (Some l) = Ok (asel idx x).
Proof.
  intros Hb Hq Hl. destruct (b_decompress_ok n r k W A b q Hb Hq) as (x & E & Sx & _). exists x. split; [exact E|]. split; [now apply shaped_alen in Sx|].
  destruct Hb as (Hn & Hr & HA & HW & E1 & E2). rewrite (b_decompress_lin b A q _ E1). rewrite (b_decompress_lin b A q _ E1) in E. unfold lin_decompress in *. cbn [need bind] in *.
  rewrite (rows_at_sel A l idx) by now rewrite (is_mat_len _ _ _ HA). cbn [bind]. apply dot_at_take; auto.
  rewrite (is_mat_len _ _ _ HA). now apply (selects_bounds n l).
Qed.
Lemma C11_bad n r W A b q zs : basis_of n r W A b -> (exists z, In z zs /\ (z < - Z.of_nat n \/ Z.of_nat n <= z)%Z) ->
  b_decompress b q (Some (LIdx zs)) = Err IndexError.
Proof.
  intros (Hn & Hr & HA & HW & E1 & E2) (z & Hz & Hout). rewrite (b_decompress_lin b A q _ E1). unfold lin_decompress. cbn [need bind].
  rewrite rows_at_bad; [reflexivity|]. intros idx Hs. cbn [selects] in Hs. rewrite (is_mat_len _ _ _ HA) in Hs.
  assert (exists i, i < n /\ (z = Z.of_nat i \/ z = Z.of_nat i - Z.of_nat n)%Z).
  { clear -Hs Hz. induction Hs; [contradiction|]. destruct Hz as [->|Hz]; eauto. }
  destruct H as (i & ? & ?). lia.
Qed.

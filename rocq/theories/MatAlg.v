(* MatAlg.v -- matrix algebra over the list representation. *)
From Verif Require Export LinAlg.

#[export] Hint Resolve is_mat_madd is_mat_msub is_mat_mscale is_mat_mT is_mat_eye is_mat_mdiag
  is_vec_vadd is_vec_vsub is_vec_vmul is_vec_vscale is_vec_matvec is_vec_colv is_vec_tab is_mat_tab : mat.
#[export] Hint Extern 2 (is_mat _ _ (matmul _ _)) => (eapply is_mat_matmul) : mat.
#[export] Hint Extern 1 (0 < _)%nat => lia : mat.
Ltac mt := solve [eauto 8 with mat].

Lemma is_mat_unique_rows r r' c c' M : is_mat r c M -> is_mat r' c' M -> r = r'.
Proof. intros [<- _] [<- _]; auto. Qed.

Lemma colv_matmul r n c A B j : is_mat r n A -> is_mat n c B -> (0 < n)%nat ->
  colv r (matmul A B) j = matvec A (colv n B j).
Proof. intros HA HB Hn. apply (vec_ext r); try mt. intros i Hi.
  rewrite vget_colv by auto. rewrite (mget_matmul r n c), (vget_matvec r n); try mt.
  apply bsum_ext. intros k Hk. rewrite vget_colv; auto. Qed.

Lemma mat_ext_col r c A B : is_mat r c A -> is_mat r c B ->
  (forall j, (j < c)%nat -> colv r A j = colv r B j) -> A = B.
Proof. intros HA HB H. apply (mat_ext r c); auto. intros i j Hi Hj.
  rewrite <- (vget_colv r A), <- (vget_colv r B), H; auto. Qed.

Lemma matmul_assoc r n m c A B C : is_mat r n A -> is_mat n m B -> is_mat m c C -> (0 < n)%nat -> (0 < m)%nat ->
  matmul (matmul A B) C = matmul A (matmul B C).
Proof. intros HA HB HC Hn Hm. apply (mat_ext r c); try mt. intros i j Hi Hj.
  rewrite (mget_matmul r m c) by mt. rewrite (mget_matmul r n c) by mt.
  rewrite (bsum_ext m _ (fun k => bsum n (fun l => mget A i l * mget B l k * mget C k j))).
  2:{ intros k Hk. rewrite (mget_matmul r n m) by mt. rewrite <- bsum_scal_r. reflexivity. }
  rewrite bsum_swap. apply bsum_ext. intros l Hl. rewrite (mget_matmul n m c) by mt.
  rewrite <- bsum_scal_l. apply bsum_ext. intros; ring. Qed.

Lemma matvec_matmul r n c A B v : is_mat r n A -> is_mat n c B -> is_vec c v -> (0 < n)%nat ->
  matvec (matmul A B) v = matvec A (matvec B v).
Proof. intros HA HB Hv Hn. apply (vec_ext r); try mt. intros i Hi.
  rewrite (vget_matvec r c), (vget_matvec r n) by mt.
  rewrite (bsum_ext c _ (fun k => bsum n (fun l => mget A i l * mget B l k * vget v k))).
  2:{ intros k Hk. rewrite (mget_matmul r n c) by mt. rewrite <- bsum_scal_r. reflexivity. }
  rewrite bsum_swap. apply bsum_ext. intros l Hl. rewrite (vget_matvec n c) by mt.
  rewrite <- bsum_scal_l. apply bsum_ext. intros; ring. Qed.

Lemma mT_matmul r n c A B : is_mat r n A -> is_mat n c B -> (0 < r)%nat -> (0 < n)%nat ->
  mT (matmul A B) = matmul (mT B) (mT A).
Proof. intros HA HB Hr Hn. apply (mat_ext c r); try mt. intros i j Hi Hj.
  rewrite (mget_mT r c) by mt. rewrite (mget_matmul r n c) by mt. rewrite (mget_matmul c n r) by mt.
  apply bsum_ext. intros k Hk. rewrite (mget_mT n c), (mget_mT r n) by mt. ring. Qed.

Lemma mT_madd r c A B : is_mat r c A -> is_mat r c B -> (0 < r)%nat -> mT (madd A B) = madd (mT A) (mT B).
Proof. intros HA HB Hr. apply (mat_ext c r); try mt. intros i j Hi Hj.
  rewrite (mget_mT r c) by mt. rewrite (mget_madd r c), (mget_madd c r) by mt. rewrite !(mget_mT r c) by mt. auto. Qed.
Lemma mT_msub r c A B : is_mat r c A -> is_mat r c B -> (0 < r)%nat -> mT (msub A B) = msub (mT A) (mT B).
Proof. intros HA HB Hr. apply (mat_ext c r); try mt. intros i j Hi Hj.
  rewrite (mget_mT r c) by mt. rewrite (mget_msub r c), (mget_msub c r) by mt. rewrite !(mget_mT r c) by mt. auto. Qed.
Lemma mT_mscale r c a A : is_mat r c A -> (0 < r)%nat -> mT (mscale a A) = mscale a (mT A).
Proof. intros HA Hr. apply (mat_ext c r); try mt. intros i j Hi Hj.
  rewrite (mget_mT r c) by mt. rewrite (mget_mscale r c), (mget_mscale c r) by mt. rewrite !(mget_mT r c) by mt. auto. Qed.
Lemma mT_eye n : (0 < n)%nat -> mT (eye n) = eye n.
Proof. intros Hn. apply (mat_ext n n); try mt. intros i j Hi Hj. rewrite (mget_mT n n) by mt.
  rewrite !mget_eye by auto. rewrite Nat.eqb_sym; auto. Qed.
Lemma mT_mdiag n v : is_vec n v -> (0 < n)%nat -> mT (mdiag v) = mdiag v.
Proof. intros Hv Hn. apply (mat_ext n n); try mt. intros i j Hi Hj. rewrite (mget_mT n n) by mt.
  rewrite !(mget_mdiag v n) by auto. rewrite Nat.eqb_sym. destruct (Nat.eqb_spec i j); subst; auto. Qed.

Lemma matmul_eye_l r c A : is_mat r c A -> (0 < r)%nat -> matmul (eye r) A = A.
Proof. intros HA Hr. apply (mat_ext r c); try mt. intros i j Hi Hj. rewrite (mget_matmul r r c) by mt.
  rewrite <- (bsum_delta_l r i (fun k => mget A k j)) by auto. apply bsum_ext. intros k Hk.
  rewrite mget_eye; auto. Qed.
Lemma matmul_eye_r r c A : is_mat r c A -> (0 < c)%nat -> matmul A (eye c) = A.
Proof. intros HA Hr. apply (mat_ext r c); try mt. intros i j Hi Hj. rewrite (mget_matmul r c c) by mt.
  rewrite <- (bsum_delta_l c j (fun k => mget A i k)) by auto. apply bsum_ext. intros k Hk.
  rewrite mget_eye by auto. rewrite Nat.eqb_sym. ring. Qed.
Lemma matvec_eye n v : is_vec n v -> matvec (eye n) v = v.
Proof. intros Hv. apply (vec_ext n); try mt. intros i Hi. rewrite (vget_matvec n n) by mt.
  rewrite <- (bsum_delta_l n i (vget v)) by auto. apply bsum_ext. intros k Hk. rewrite mget_eye; auto. Qed.

Lemma matmul_mdiag_r r n A v : is_mat r n A -> is_vec n v -> forall i j, (i < r)%nat -> (j < n)%nat ->
  mget (matmul A (mdiag v)) i j = mget A i j * vget v j.
Proof. intros HA Hv i j Hi Hj. rewrite (mget_matmul r n n) by mt.
  rewrite <- (bsum_delta_l n j (fun k => mget A i k * vget v j)) by auto. apply bsum_ext. intros k Hk.
  rewrite (mget_mdiag v n) by auto. rewrite Nat.eqb_sym. destruct (Nat.eqb_spec j k); subst; ring. Qed.
Lemma matmul_mdiag_l n c A v : is_mat n c A -> is_vec n v -> forall i j, (i < n)%nat -> (j < c)%nat ->
  mget (matmul (mdiag v) A) i j = vget v i * mget A i j.
Proof. intros HA Hv i j Hi Hj. rewrite (mget_matmul n n c) by mt.
  rewrite <- (bsum_delta_l n i (fun k => vget v i * mget A k j)) by auto. apply bsum_ext. intros k Hk.
  rewrite (mget_mdiag v n) by auto. destruct (Nat.eqb_spec i k); subst; ring. Qed.

Lemma matmul_madd_l r n c A B C : is_mat r n A -> is_mat r n B -> is_mat n c C -> (0 < n)%nat ->
  matmul (madd A B) C = madd (matmul A C) (matmul B C).
Proof. intros. apply (mat_ext r c); try mt. intros i j Hi Hj. rewrite (mget_madd r c) by mt.
  rewrite !(mget_matmul r n c) by mt. rewrite <- bsum_plus. apply bsum_ext. intros k Hk.
  rewrite (mget_madd r n) by mt. ring. Qed.
Lemma matmul_madd_r r n c A B C : is_mat r n A -> is_mat n c B -> is_mat n c C -> (0 < n)%nat ->
  matmul A (madd B C) = madd (matmul A B) (matmul A C).
Proof. intros. apply (mat_ext r c); try mt. intros i j Hi Hj. rewrite (mget_madd r c) by mt.
  rewrite !(mget_matmul r n c) by mt. rewrite <- bsum_plus. apply bsum_ext. intros k Hk.
  rewrite (mget_madd n c) by mt. ring. Qed.
Lemma matmul_msub_l r n c A B C : is_mat r n A -> is_mat r n B -> is_mat n c C -> (0 < n)%nat ->
  matmul (msub A B) C = msub (matmul A C) (matmul B C).
Proof. intros. apply (mat_ext r c); try mt. intros i j Hi Hj. rewrite (mget_msub r c) by mt.
  rewrite !(mget_matmul r n c) by mt. rewrite <- bsum_minus. apply bsum_ext. intros k Hk.
  rewrite (mget_msub r n) by mt. ring. Qed.
Lemma matmul_msub_r r n c A B C : is_mat r n A -> is_mat n c B -> is_mat n c C -> (0 < n)%nat ->
  matmul A (msub B C) = msub (matmul A B) (matmul A C).
Proof. intros. apply (mat_ext r c); try mt. intros i j Hi Hj. rewrite (mget_msub r c) by mt.
  rewrite !(mget_matmul r n c) by mt. rewrite <- bsum_minus. apply bsum_ext. intros k Hk.
  rewrite (mget_msub n c) by mt. ring. Qed.
Lemma matmul_mscale_l r n c a A B : is_mat r n A -> is_mat n c B -> (0 < n)%nat ->
  matmul (mscale a A) B = mscale a (matmul A B).
Proof. intros. apply (mat_ext r c); try mt. intros i j Hi Hj. rewrite (mget_mscale r c) by mt.
  rewrite !(mget_matmul r n c) by mt. rewrite <- bsum_scal_l. apply bsum_ext. intros k Hk.
  rewrite (mget_mscale r n) by mt. ring. Qed.
Lemma matmul_mscale_r r n c a A B : is_mat r n A -> is_mat n c B -> (0 < n)%nat ->
  matmul A (mscale a B) = mscale a (matmul A B).
Proof. intros. apply (mat_ext r c); try mt. intros i j Hi Hj. rewrite (mget_mscale r c) by mt.
  rewrite !(mget_matmul r n c) by mt. rewrite <- bsum_scal_l. apply bsum_ext. intros k Hk.
  rewrite (mget_mscale n c) by mt. ring. Qed.

Lemma matvec_vadd r n A u v : is_mat r n A -> is_vec n u -> is_vec n v ->
  matvec A (vadd u v) = vadd (matvec A u) (matvec A v).
Proof. intros. apply (vec_ext r); try mt. intros i Hi. rewrite (vget_vadd r) by mt.
  rewrite !(vget_matvec r n) by mt. rewrite <- bsum_plus. apply bsum_ext. intros. rewrite (vget_vadd n) by mt. ring. Qed.
Lemma matvec_vsub r n A u v : is_mat r n A -> is_vec n u -> is_vec n v ->
  matvec A (vsub u v) = vsub (matvec A u) (matvec A v).
Proof. intros. apply (vec_ext r); try mt. intros i Hi. rewrite (vget_vsub r) by mt.
  rewrite !(vget_matvec r n) by mt. rewrite <- bsum_minus. apply bsum_ext. intros. rewrite (vget_vsub n) by mt. ring. Qed.
Lemma matvec_vscale r n A a v : is_mat r n A -> is_vec n v -> matvec A (vscale a v) = vscale a (matvec A v).
Proof. intros. apply (vec_ext r); try mt. intros i Hi. rewrite vget_vscale.
  rewrite !(vget_matvec r n) by mt. rewrite <- bsum_scal_l. apply bsum_ext. intros. rewrite vget_vscale. ring. Qed.
Lemma matvec_madd r n A B v : is_mat r n A -> is_mat r n B -> is_vec n v ->
  matvec (madd A B) v = vadd (matvec A v) (matvec B v).
Proof. intros. apply (vec_ext r); try mt. intros i Hi. rewrite (vget_vadd r) by mt.
  rewrite !(vget_matvec r n) by mt. rewrite <- bsum_plus. apply bsum_ext. intros. rewrite (mget_madd r n) by mt. ring. Qed.
Lemma matvec_msub r n A B v : is_mat r n A -> is_mat r n B -> is_vec n v ->
  matvec (msub A B) v = vsub (matvec A v) (matvec B v).
Proof. intros. apply (vec_ext r); try mt. intros i Hi. rewrite (vget_vsub r) by mt.
  rewrite !(vget_matvec r n) by mt. rewrite <- bsum_minus. apply bsum_ext. intros. rewrite (mget_msub r n) by mt. ring. Qed.
Lemma matvec_mscale r n a A v : is_mat r n A -> is_vec n v ->
  matvec (mscale a A) v = vscale a (matvec A v).
Proof. intros. apply (vec_ext r); try mt. intros i Hi. rewrite vget_vscale.
  rewrite !(vget_matvec r n) by mt. rewrite <- bsum_scal_l. apply bsum_ext. intros. rewrite (mget_mscale r n) by mt. ring. Qed.

Lemma dot_matvec r n A x y : is_mat r n A -> is_vec n x -> is_vec r y -> (0 < r)%nat ->
  dot (matvec A x) y = dot x (matvec (mT A) y).
Proof. intros HA Hx Hy Hr. rewrite (dot_bsum r), (dot_bsum n) by mt.
  rewrite (bsum_ext r _ (fun i => bsum n (fun k => mget A i k * vget x k * vget y i))).
  2:{ intros. rewrite (vget_matvec r n), <- bsum_scal_r by mt. auto. }
  rewrite bsum_swap. apply bsum_ext. intros k Hk. rewrite (vget_matvec n r) by mt. rewrite <- bsum_scal_l.
  apply bsum_ext. intros i Hi. rewrite (mget_mT r n) by mt. ring. Qed.

(* additive group of vectors and matrices, entrywise *)
Ltac vring n := apply (vec_ext n); [mt|mt|]; intros ? ?; repeat first
  [ rewrite (vget_vadd n) by mt | rewrite (vget_vsub n) by mt | rewrite vget_vscale ]; ring.
Ltac mring r c := apply (mat_ext r c); [mt|mt|]; intros ? ? ? ?; repeat first
  [ rewrite (mget_madd r c) by mt | rewrite (mget_msub r c) by mt | rewrite (mget_mscale r c) by mt ]; ring.

Lemma vadd_comm n u v : is_vec n u -> is_vec n v -> vadd u v = vadd v u.
Proof. intros. vring n. Qed.
Lemma vadd_assoc n u v w : is_vec n u -> is_vec n v -> is_vec n w -> vadd (vadd u v) w = vadd u (vadd v w).
Proof. intros. vring n. Qed.
Lemma vsub_vadd n u v : is_vec n u -> is_vec n v -> vadd (vsub u v) v = u.
Proof. intros. vring n. Qed.
Lemma vadd_vsub n u v : is_vec n u -> is_vec n v -> vsub (vadd u v) v = u.
Proof. intros. vring n. Qed.
Lemma madd_comm r c A B : is_mat r c A -> is_mat r c B -> madd A B = madd B A.
Proof. intros. mring r c. Qed.
Lemma madd_assoc r c A B C : is_mat r c A -> is_mat r c B -> is_mat r c C -> madd (madd A B) C = madd A (madd B C).
Proof. intros. mring r c. Qed.
Lemma msub_madd r c A B : is_mat r c A -> is_mat r c B -> madd (msub A B) B = A.
Proof. intros. mring r c. Qed.
Lemma madd_msub r c A B : is_mat r c A -> is_mat r c B -> msub (madd A B) B = A.
Proof. intros. mring r c. Qed.

(* norms *)
Lemma vnorm2_bsum n v : is_vec n v -> vnorm2 v = bsum n (fun i => vget v i * vget v i).
Proof. intros Hv. unfold vnorm2. rewrite lsum_nth. rewrite map_length, Hv. apply bsum_ext. intros i Hi.
  rewrite vget_map by (rewrite Hv; auto). auto. Qed.
Lemma vnorm2_dot v : vnorm2 v = dot v v.
Proof. rewrite (vnorm2_bsum (List.length v)), (dot_bsum (List.length v)) by reflexivity. auto. Qed.
Lemma vnorm2_nonneg v : 0 <= vnorm2 v.
Proof. unfold vnorm2. apply lsum_nonneg. intros x Hx. apply in_map_iff in Hx. destruct Hx as [y [<- _]]. nra. Qed.
Lemma mnorm2_bsum r c M : is_mat r c M -> mnorm2 M = bsum r (fun i => bsum c (fun j => mget M i j * mget M i j)).
Proof. intros HM. unfold mnorm2. rewrite lsum_nth, map_length, (is_mat_len r c M HM). apply bsum_ext. intros i Hi.
  unfold vget. rewrite (nth_map_in _ M i 0 nil) by (rewrite (is_mat_len r c M HM); auto).
  rewrite (vnorm2_bsum c) by (apply (is_mat_row r c); auto). reflexivity. Qed.
Lemma mnorm2_nonneg M : 0 <= mnorm2 M.
Proof. unfold mnorm2. apply lsum_nonneg. intros x Hx. apply in_map_iff in Hx. destruct Hx as [y [<- _]].
  apply vnorm2_nonneg. Qed.
Lemma vnorm2_0 n v : is_vec n v -> vnorm2 v = 0 -> forall i, (i < n)%nat -> vget v i = 0.
Proof. intros Hv H i Hi. rewrite (vnorm2_bsum n) in H by auto.
  assert (K := bsum_nonneg_0 n (fun i => vget v i * vget v i)). simpl in K.
  assert (vget v i * vget v i = 0) by (apply K; auto; intros; nra). nra. Qed.
Lemma mnorm2_0 r c M : is_mat r c M -> mnorm2 M = 0 -> forall i j, (i < r)%nat -> (j < c)%nat -> mget M i j = 0.
Proof. intros HM H i j Hi Hj. rewrite (mnorm2_bsum r c) in H by auto.
  assert (K : bsum c (fun j => mget M i j * mget M i j) = 0).
  { apply (bsum_nonneg_0 r (fun i => bsum c (fun j => mget M i j * mget M i j))); auto.
    intros; apply bsum_nonneg; intros; nra. }
  assert (mget M i j * mget M i j = 0); [|nra].
  apply (bsum_nonneg_0 c (fun j => mget M i j * mget M i j)); auto. intros; nra. Qed.
Lemma mnorm2_mT r c M : is_mat r c M -> (0 < r)%nat -> mnorm2 (mT M) = mnorm2 M.
Proof. intros HM Hr. rewrite (mnorm2_bsum c r), (mnorm2_bsum r c) by mt. rewrite bsum_swap.
  apply bsum_ext; intros; apply bsum_ext; intros. rewrite !(mget_mT r c) by mt. auto. Qed.

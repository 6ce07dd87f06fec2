(* EckartYoung.v -- orthonormal families as functions: Gram-Schmidt, Bessel's inequality and the
   Eckart-Young-Mirsky theorem in the Frobenius norm. *)
From Verif Require Export LinAlg.
#[local] Open Scope R_scope.

Definition dlt (i j : nat) : R := if Nat.eqb i j then 1 else 0.
(* inner product of functions on {0..k-1} *)
Definition ip (k : nat) (x y : nat -> R) : R := bsum k (fun t => x t * y t).
(* q 0, ..., q (m-1) are orthonormal *)
Definition onf (k m : nat) (q : nat -> nat -> R) : Prop := forall i j, (i < m)%nat -> (j < m)%nat -> ip k (q i) (q j) = dlt i j.
(* the combination of the first m of the q with coefficients c *)
Definition comb (m : nat) (c : nat -> R) (q : nat -> nat -> R) (t : nat) : R := bsum m (fun j => c j * q j t).

Lemma dlt_same i : dlt i i = 1. Proof. unfold dlt. now rewrite Nat.eqb_refl. Qed.
Lemma dlt_ne i j : i <> j -> dlt i j = 0. Proof. intros H. unfold dlt. now rewrite (proj2 (Nat.eqb_neq i j) H). Qed.
Lemma dlt_sym i j : dlt i j = dlt j i. Proof. unfold dlt. now rewrite Nat.eqb_sym. Qed.
Lemma bsum_dlt n k f : (k < n)%nat -> bsum n (fun i => dlt i k * f i) = f k.
Proof.
  intros H. induction n as [|n IH]; [lia|]. cbn [bsum].
  destruct (Nat.eq_dec k n) as [->|].
  - rewrite dlt_same, bsum_0; [ring|]. intros i Hi. rewrite dlt_ne by lia. ring.
  - rewrite IH by lia. rewrite dlt_ne by lia. ring.
Qed.
Lemma bsum_dlt' n k f : (k < n)%nat -> bsum n (fun i => dlt k i * f i) = f k.
Proof. intros H. rewrite <- (bsum_dlt n k f H). apply bsum_ext. intros. now rewrite dlt_sym. Qed.

Lemma ip_comm k x y : ip k x y = ip k y x.
Proof. unfold ip. apply bsum_ext. intros. ring. Qed.
Lemma ip_ext k x x' y y' : (forall t, (t < k)%nat -> x t = x' t) -> (forall t, (t < k)%nat -> y t = y' t) -> ip k x y = ip k x' y'.
Proof. intros H1 H2. unfold ip. apply bsum_ext. intros. now rewrite H1, H2. Qed.
Lemma ip_nonneg k x : 0 <= ip k x x.
Proof. apply bsum_nonneg. intros. apply Rle_0_sqr. Qed.
Lemma ip_sub_l k x y z : ip k (fun t => x t - y t) z = ip k x z - ip k y z.
Proof. unfold ip. rewrite <- bsum_minus. apply bsum_ext. intros. ring. Qed.
Lemma ip_scal_l k a x z : ip k (fun t => a * x t) z = a * ip k x z.
Proof. unfold ip. rewrite <- bsum_scal_l. apply bsum_ext. intros. ring. Qed.
Lemma ip_comb_l k m c q z : ip k (comb m c q) z = bsum m (fun j => c j * ip k (q j) z).
Proof.
  unfold ip, comb.
  transitivity (bsum k (fun t => bsum m (fun j => c j * (q j t * z t)))).
  { apply bsum_ext. intros. rewrite <- bsum_scal_r. apply bsum_ext. intros. ring. }
  rewrite bsum_swap. apply bsum_ext. intros. now rewrite bsum_scal_l.
Qed.
Lemma ip_comb_on k m c q i : onf k m q -> (i < m)%nat -> ip k (comb m c q) (q i) = c i.
Proof.
  intros H Hi. rewrite ip_comb_l. rewrite <- (bsum_dlt m i c Hi). apply bsum_ext. intros j Hj. rewrite H by auto. ring.
Qed.
Lemma ip_comb2 k m c q : onf k m q -> ip k (comb m c q) (comb m c q) = bsum m (fun j => c j * c j).
Proof.
  intros H. rewrite ip_comb_l. apply bsum_ext. intros j Hj. rewrite ip_comm, ip_comb_on by auto. reflexivity.
Qed.

(* best approximation: |x - sum W_j q_j|^2 >= |x|^2 - sum <q_j, x>^2 *)
Lemma residual_lower k m q x W : onf k m q ->
  ip k (fun t => x t - comb m W q t) (fun t => x t - comb m W q t)
  = ip k x x - bsum m (fun j => ip k (q j) x * ip k (q j) x) + bsum m (fun j => (W j - ip k (q j) x) * (W j - ip k (q j) x)).
Proof.
  intros H. rewrite ip_sub_l.
  rewrite (ip_comm k x), (ip_comm k (comb m W q)), !ip_sub_l.
  rewrite (ip_comb2 k m W q H), (ip_comm k x (comb m W q)), !ip_comb_l.
  transitivity (ip k x x - bsum m (fun j => W j * ip k (q j) x) - bsum m (fun j => W j * ip k (q j) x) + bsum m (fun j => W j * W j)); [ring|].
  transitivity (ip k x x + (bsum m (fun j => W j * W j) - bsum m (fun j => W j * ip k (q j) x) - bsum m (fun j => W j * ip k (q j) x))); [ring|].
  rewrite <- !bsum_minus.
  transitivity (ip k x x + (bsum m (fun j => (W j - ip k (q j) x) * (W j - ip k (q j) x)) - bsum m (fun j => ip k (q j) x * ip k (q j) x))); [|ring].
  f_equal. rewrite <- bsum_minus. apply bsum_ext. intros. ring.
Qed.

Lemma bessel k m q x : onf k m q -> bsum m (fun j => ip k (q j) x * ip k (q j) x) <= ip k x x.
Proof.
  intros H. pose proof (residual_lower k m q x (fun j => ip k (q j) x) H) as E. cbv beta in E.
  rewrite (bsum_0 m (fun j => (ip k (q j) x - ip k (q j) x) * (ip k (q j) x - ip k (q j) x))) in E by (intros; ring).
  pose proof (ip_nonneg k (fun t => x t - comb m (fun j => ip k (q j) x) q t)). lra.
Qed.

(* Gram-Schmidt: n functions lie in the span of at most n orthonormal ones *)
Lemma gram_schmidt k n (x : nat -> nat -> R) :
  exists m q c, (m <= n)%nat /\ onf k m q /\ forall a t, (a < n)%nat -> (t < k)%nat -> x a t = comb m (c a) q t.
Proof.
  induction n as [|n IH].
  - exists 0%nat, (fun _ _ => 0), (fun _ _ => 0). split; [lia|split]; [intros i j Hi|intros a t Ha]; lia.
  - destruct IH as (m & q & c & Hm & Hq & Hx).
    set (w := fun j => ip k (q j) (x n)).
    set (y := fun t => x n t - comb m w q t).
    set (N := ip k y y).
    assert (Hy : forall i, (i < m)%nat -> ip k y (q i) = 0).
    { intros i Hi. unfold y. rewrite ip_sub_l, ip_comb_on by auto. unfold w. rewrite ip_comm. ring. }
    destruct (Req_EM_T N 0) as [HN|HN].
    + exists m, q, (fun a => if Nat.eqb a n then w else c a). split; [lia|split; [exact Hq|]].
      intros a t Ha Ht. destruct (Nat.eqb_spec a n) as [->|]; [|apply Hx; lia].
      assert (y t = 0).
      { unfold N, ip in HN. apply (bsum_nonneg_0 k _) with (i := t) in HN; auto; [|intros; apply Rle_0_sqr].
        now apply Rsqr_0_uniq in HN. }
      unfold y in H. lra.
    + assert (HN0 : 0 < N) by (pose proof (ip_nonneg k y); fold N in H; lra).
      assert (Hs : sqrt N <> 0) by (intros Z; apply sqrt_eq_0 in Z; lra).
      assert (Hss : sqrt N * sqrt N = N) by (apply sqrt_sqrt; lra).
      set (q' := fun j => if Nat.eqb j m then (fun t => / sqrt N * y t) else q j).
      exists (S m), q', (fun a j => if Nat.eqb a n then (if Nat.eqb j m then sqrt N else w j) else (if Nat.eqb j m then 0 else c a j)).
      split; [lia|]. split.
      * intros i j Hi Hj. unfold q'.
        destruct (Nat.eqb_spec i m) as [->|Hi']; destruct (Nat.eqb_spec j m) as [->|Hj'].
        -- rewrite dlt_same, ip_scal_l, ip_comm, ip_scal_l. fold N. transitivity (/ sqrt N * (/ sqrt N * (sqrt N * sqrt N))); [now rewrite Hss|field; exact Hs].
        -- rewrite dlt_ne by lia. rewrite ip_scal_l, Hy by lia. ring.
        -- rewrite dlt_ne by lia. rewrite ip_comm, ip_scal_l, Hy by lia. ring.
        -- apply Hq; lia.
      * intros a t Ha Ht. unfold comb. cbn [bsum]. unfold q' at 2. rewrite Nat.eqb_refl.
        transitivity (bsum m (fun j => (if Nat.eqb a n then w j else c a j) * q j t) + (if Nat.eqb a n then sqrt N else 0) * (/ sqrt N * y t)).
        -- destruct (Nat.eqb_spec a n) as [->|].
           ++ unfold y, comb. field. exact Hs.
           ++ rewrite (Hx a t) by lia. unfold comb. ring.
        -- f_equal. apply bsum_ext. intros j Hj. unfold q'. rewrite (proj2 (Nat.eqb_neq j m)) by lia. reflexivity.
Qed.

(* a weighted sum with weights in [0,1] of total at most n is largest on the n largest values *)
Lemma weighted_top p n a g : (n <= p)%nat -> (forall i, (i < p)%nat -> 0 <= a i) ->
  (forall i j, (i <= j)%nat -> (j < p)%nat -> a j <= a i) -> (forall i, (i < p)%nat -> 0 <= g i <= 1) -> bsum p g <= INR n ->
  bsum p (fun i => a i * g i) <= bsum n a.
Proof.
  intros Hn Ha Hm Hg HS. replace p with (n + (p - n))%nat by lia. rewrite bsum_split.
  destruct (Nat.eq_dec n p) as [E|E].
  - replace (p - n)%nat with 0%nat by lia. cbn [bsum].
    assert (bsum n (fun i => a i * g i) <= bsum n a); [|lra].
    apply bsum_le. intros i Hi. pose proof (Ha i ltac:(lia)). pose proof (Hg i ltac:(lia)). nra.
  - replace p with (n + (p - n))%nat in HS by lia. rewrite bsum_split in HS.
    assert (A1 : bsum n (fun i => a i * g i) <= bsum n (fun i => a i + a n * (g i - 1))).
    { apply bsum_le. intros i Hi. pose proof (Hm i n ltac:(lia) ltac:(lia)). pose proof (Hg i ltac:(lia)). nra. }
    assert (A2 : bsum (p - n) (fun i => a (n + i)%nat * g (n + i)%nat) <= bsum (p - n) (fun i => a n * g (n + i)%nat)).
    { apply bsum_le. intros i Hi. pose proof (Hm n (n + i)%nat ltac:(lia) ltac:(lia)). pose proof (Hg (n + i)%nat ltac:(lia)). nra. }
    rewrite bsum_scal_l in A2. rewrite bsum_plus, bsum_scal_l, bsum_minus, bsum_const in A1.
    pose proof (Ha n ltac:(lia)) as H0.
    set (S1 := bsum n g) in *. set (S2 := bsum (p - n) (fun i => g (n + i)%nat)) in *.
    assert (a n * (S1 - INR n * 1) + a n * S2 <= 0) by nra. lra.
Qed.

(* the singular value expansion sum_i phi_i(t) s_i psi_i(l) *)
Definition sve (p : nat) (phi : nat -> nat -> R) (s : nat -> R) (psi : nat -> nat -> R) (t l : nat) : R :=
  bsum p (fun i => s i * (phi i t * psi i l)).
Definition fro2 (k d : nat) (A : nat -> nat -> R) : R := bsum k (fun t => bsum d (fun l => A t l * A t l)).

(* <q, column l of A> summed over l *)
Lemma proj_energy k d p phi s psi q : onf d p psi ->
  bsum d (fun l => ip k q (fun t => sve p phi s psi t l) * ip k q (fun t => sve p phi s psi t l))
  = bsum p (fun i => s i * s i * (ip k (phi i) q * ip k (phi i) q)).
Proof.
  intros Hs.
  transitivity (ip d (comb p (fun i => s i * ip k (phi i) q) psi) (comb p (fun i => s i * ip k (phi i) q) psi)).
  - unfold ip at 3. apply bsum_ext. intros l Hl.
    assert (E : ip k q (fun t => sve p phi s psi t l) = comb p (fun i => s i * ip k (phi i) q) psi l).
    { unfold ip at 1, sve, comb.
      transitivity (bsum k (fun t => bsum p (fun i => (s i * psi i l) * (phi i t * q t)))).
      { apply bsum_ext. intros. rewrite <- bsum_scal_l. apply bsum_ext. intros. ring. }
      rewrite bsum_swap. apply bsum_ext. intros. rewrite bsum_scal_l. unfold ip. ring. }
    now rewrite E.
  - rewrite ip_comb2 by auto. apply bsum_ext. intros. ring.
Qed.

Lemma fro2_sve k d p phi s psi : onf k p phi -> onf d p psi ->
  fro2 k d (sve p phi s psi) = bsum p (fun i => s i * s i).
Proof.
  intros Hp Hs. unfold fro2.
  transitivity (bsum k (fun t => bsum p (fun i => (s i * phi i t) * (s i * phi i t)))).
  - apply bsum_ext. intros t Ht.
    transitivity (ip d (comb p (fun i => s i * phi i t) psi) (comb p (fun i => s i * phi i t) psi)).
    + apply bsum_ext. intros l Hl.
      assert (E : sve p phi s psi t l = comb p (fun i => s i * phi i t) psi l) by (apply bsum_ext; intros; ring).
      now rewrite E.
    + now rewrite ip_comb2.
  - rewrite bsum_swap. apply bsum_ext. intros i Hi.
    transitivity (s i * s i * ip k (phi i) (phi i)).
    + unfold ip. rewrite <- bsum_scal_l. apply bsum_ext. intros. ring.
    + rewrite Hp, dlt_same by auto. ring.
Qed.

(* fro2 of A - sum_j q_j W_j, for orthonormal q *)
Lemma fro2_residual k d m q W A : onf k m q ->
  fro2 k d (fun t l => A t l - comb m (fun j => W j l) q t)
  = fro2 k d A - bsum m (fun j => bsum d (fun l => ip k (q j) (fun t => A t l) * ip k (q j) (fun t => A t l)))
    + bsum d (fun l => bsum m (fun j => (W j l - ip k (q j) (fun t => A t l)) * (W j l - ip k (q j) (fun t => A t l)))).
Proof.
  intros Hq. unfold fro2. rewrite bsum_swap, (bsum_swap k d (fun t l => A t l * A t l)), (bsum_swap m d).
  rewrite <- bsum_minus, <- bsum_plus. apply bsum_ext. intros l Hl.
  exact (residual_lower k m q (fun t => A t l) (fun j => W j l) Hq).
Qed.

(* any orthonormal family of at most n functions captures at most the n largest squared singular values *)
Lemma ky_fan k d p n m phi s psi q : onf k p phi -> onf d p psi -> onf k m q -> (m <= n)%nat -> (n <= p)%nat ->
  (forall i, (i < p)%nat -> 0 <= s i) -> (forall i j, (i <= j)%nat -> (j < p)%nat -> s j <= s i) ->
  bsum m (fun j => bsum d (fun l => ip k (q j) (fun t => sve p phi s psi t l) * ip k (q j) (fun t => sve p phi s psi t l)))
  <= bsum n (fun i => s i * s i).
Proof.
  intros Hp Hs Hq Hm Hn H0 Hd.
  apply Rle_trans with (bsum p (fun i => s i * s i * bsum m (fun j => ip k (phi i) (q j) * ip k (phi i) (q j)))).
  - right. rewrite (bsum_ext m _ (fun j => bsum p (fun i => s i * s i * (ip k (phi i) (q j) * ip k (phi i) (q j)))))
      by (intros; apply proj_energy; auto).
    rewrite bsum_swap. apply bsum_ext. intros. now rewrite bsum_scal_l.
  - apply (weighted_top p n (fun i => s i * s i) (fun i => bsum m (fun j => ip k (phi i) (q j) * ip k (phi i) (q j)))); auto.
    + intros. apply Rle_0_sqr.
    + intros i j Hij Hj. pose proof (Hd i j Hij Hj). pose proof (H0 i ltac:(lia)). pose proof (H0 j Hj). nra.
    + intros i Hi. split; [apply bsum_nonneg; intros; apply Rle_0_sqr|].
      pose proof (bessel k m q (phi i) Hq) as B. rewrite (Hp i i Hi Hi), dlt_same in B.
      erewrite bsum_ext; [exact B|]. intros j Hj. cbn beta. now rewrite (ip_comm k (q j)).
    + rewrite bsum_swap. apply Rle_trans with (bsum m (fun _ => 1)).
      * apply bsum_le. intros j Hj. pose proof (bessel k p phi (q j) Hp) as B. rewrite (Hq j j Hj Hj), dlt_same in B. exact B.
      * rewrite bsum_const. apply le_INR in Hm. lra.
Qed.

(* Eckart-Young: no matrix of the form X Y with inner dimension n is closer than the tail of the singular values *)
Theorem eckart_young k d p n phi s psi X Y : onf k p phi -> onf d p psi -> (n <= p)%nat ->
  (forall i, (i < p)%nat -> 0 <= s i) -> (forall i j, (i <= j)%nat -> (j < p)%nat -> s j <= s i) ->
  bsum p (fun i => s i * s i) - bsum n (fun i => s i * s i)
  <= fro2 k d (fun t l => sve p phi s psi t l - bsum n (fun a => X a t * Y a l)).
Proof.
  intros Hp Hs Hn H0 Hd.
  destruct (gram_schmidt k n X) as (m & q & c & Hm & Hq & HX).
  assert (E : fro2 k d (fun t l => sve p phi s psi t l - bsum n (fun a => X a t * Y a l))
            = fro2 k d (fun t l => sve p phi s psi t l - comb m (fun j => bsum n (fun a => c a j * Y a l)) q t)).
  { unfold fro2. apply bsum_ext. intros t Ht. apply bsum_ext. intros l Hl.
    assert (E : bsum n (fun a => X a t * Y a l) = comb m (fun j => bsum n (fun a => c a j * Y a l)) q t).
    { unfold comb. transitivity (bsum n (fun a => bsum m (fun j => c a j * Y a l * q j t))).
      - apply bsum_ext. intros a Ha. rewrite (HX a t Ha Ht). unfold comb. rewrite <- bsum_scal_r. apply bsum_ext. intros. ring.
      - rewrite bsum_swap. apply bsum_ext. intros. now rewrite bsum_scal_r. }
    now rewrite E. }
  rewrite E. pose proof (fro2_residual k d m q (fun j l => bsum n (fun a => c a j * Y a l)) (sve p phi s psi) Hq) as F.
  cbn beta in F. rewrite F. clear F.
  rewrite fro2_sve by auto.
  pose proof (ky_fan k d p n m phi s psi q Hp Hs Hq Hm Hn H0 Hd) as K.
  match goal with |- _ <= _ - _ + ?T => assert (0 <= T) by (apply bsum_nonneg; intros; apply bsum_nonneg; intros; apply Rle_0_sqr) end.
  lra.
Qed.

(* the truncated expansion attains the bound *)
Lemma truncation_error k d p n phi s psi : onf k p phi -> onf d p psi -> (n <= p)%nat ->
  fro2 k d (fun t l => sve p phi s psi t l - sve n phi s psi t l) = bsum p (fun i => s i * s i) - bsum n (fun i => s i * s i).
Proof.
  intros Hp Hs Hn. replace p with (n + (p - n))%nat by lia. rewrite (bsum_split n (p - n) (fun i => s i * s i)).
  transitivity (fro2 k d (sve (p - n) (fun i => phi (n + i)%nat) (fun i => s (n + i)%nat) (fun i => psi (n + i)%nat))).
  - unfold fro2. apply bsum_ext. intros t Ht. apply bsum_ext. intros l Hl. unfold sve. rewrite bsum_split. ring.
  - rewrite fro2_sve; [ring| |].
    + intros i j Hi Hj. rewrite Hp by lia. unfold dlt. destruct (Nat.eqb_spec i j) as [->|]; [now rewrite Nat.eqb_refl|].
      now rewrite (proj2 (Nat.eqb_neq (n + i) (n + j))) by lia.
    + intros i j Hi Hj. rewrite Hs by lia. unfold dlt. destruct (Nat.eqb_spec i j) as [->|]; [now rewrite Nat.eqb_refl|].
      now rewrite (proj2 (Nat.eqb_neq (n + i) (n + j))) by lia.
Qed.

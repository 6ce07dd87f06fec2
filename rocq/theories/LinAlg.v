(* LinAlg.v -- lemmas about finite sums, vectors and matrices. *)
From Verif Require Export NumPy.
From Coq Require Export FunctionalExtensionality.

(* ---------------------------------------------------------------- finite sums *)
Lemma bsum_ext n f g : (forall i, (i < n)%nat -> f i = g i) -> bsum n f = bsum n g.
Proof. induction n as [|n IH]; intros H; simpl; [reflexivity|].
  rewrite IH, H; auto. Qed.

Lemma bsum_plus n f g : bsum n (fun i => f i + g i) = bsum n f + bsum n g.
Proof. induction n as [|n IH]; simpl; [ring|]. rewrite IH; ring. Qed.

Lemma bsum_minus n f g : bsum n (fun i => f i - g i) = bsum n f - bsum n g.
Proof. induction n as [|n IH]; simpl; [ring|]. rewrite IH; ring. Qed.

Lemma bsum_opp n f : bsum n (fun i => - f i) = - bsum n f.
Proof. induction n as [|n IH]; simpl; [ring|]. rewrite IH; ring. Qed.

Lemma bsum_scal_l n a f : bsum n (fun i => a * f i) = a * bsum n f.
Proof. induction n as [|n IH]; simpl; [ring|]. rewrite IH; ring. Qed.

Lemma bsum_scal_r n a f : bsum n (fun i => f i * a) = bsum n f * a.
Proof. induction n as [|n IH]; simpl; [ring|]. rewrite IH; ring. Qed.

Lemma bsum_div n a f : bsum n (fun i => f i / a) = bsum n f / a.
Proof. unfold Rdiv. apply bsum_scal_r. Qed.

Lemma bsum_0 n f : (forall i, (i < n)%nat -> f i = 0) -> bsum n f = 0.
Proof. induction n as [|n IH]; intros H; simpl; [reflexivity|].
  rewrite IH, H; auto; ring. Qed.

Lemma bsum_const n a : bsum n (fun _ => a) = INR n * a.
Proof. induction n as [|n IH]; [simpl; ring|]. rewrite S_INR. simpl. rewrite IH; ring. Qed.

Lemma bsum_swap n m f :
  bsum n (fun i => bsum m (fun j => f i j)) = bsum m (fun j => bsum n (fun i => f i j)).
Proof. induction n as [|n IH]; simpl.
  - symmetry; apply bsum_0; auto.
  - rewrite IH, bsum_plus. reflexivity. Qed.

Lemma bsum_delta n k f :
  (k < n)%nat -> bsum n (fun i => if Nat.eqb i k then f i else 0) = f k.
Proof. induction n as [|n IH]; intros H; [lia|]. simpl.
  destruct (Nat.eqb_spec n k) as [->|Hk].
  - rewrite bsum_0; [ring|]. intros i Hi. destruct (Nat.eqb_spec i k); [lia|reflexivity].
  - rewrite IH; [ring|lia]. Qed.

Lemma bsum_delta_l n k f :
  (k < n)%nat -> bsum n (fun i => (if Nat.eqb k i then 1 else 0) * f i) = f k.
Proof. intros H. rewrite <- (bsum_delta n k f H). apply bsum_ext. intros i _.
  rewrite Nat.eqb_sym. destruct (Nat.eqb i k); ring. Qed.

Lemma bsum_split n m f : bsum (n + m) f = bsum n f + bsum m (fun i => f (n + i)%nat).
Proof. induction m as [|m IH]; [rewrite Nat.add_0_r; simpl; ring|].
  rewrite Nat.add_succ_r. simpl. rewrite IH. ring. Qed.

Lemma bsum_S_l n f : bsum (S n) f = f 0%nat + bsum n (fun i => f (S i)).
Proof. change (S n) with (1 + n)%nat. rewrite bsum_split. simpl. ring. Qed.

Lemma bsum_nonneg n f : (forall i, (i < n)%nat -> 0 <= f i) -> 0 <= bsum n f.
Proof. induction n as [|n IH]; intros H; simpl; [lra|].
  specialize (IH (fun i Hi => H i (Nat.lt_lt_succ_r _ _ Hi))).
  specialize (H n (Nat.lt_succ_diag_r n)). lra. Qed.

Lemma bsum_le n f g : (forall i, (i < n)%nat -> f i <= g i) -> bsum n f <= bsum n g.
Proof. intros H. assert (0 <= bsum n (fun i => g i - f i)) as H0.
  { apply bsum_nonneg. intros i Hi. specialize (H i Hi). lra. }
  rewrite bsum_minus in H0. lra. Qed.

Lemma bsum_nonneg_0 n f : (forall i, (i < n)%nat -> 0 <= f i) -> bsum n f = 0 ->
  forall i, (i < n)%nat -> f i = 0.
Proof. induction n as [|n IH]; intros H H0 i Hi; [lia|]. simpl in H0.
  assert (0 <= bsum n f) by (apply bsum_nonneg; auto).
  assert (0 <= f n) by auto.
  destruct (Nat.eq_dec i n) as [->|Hn]; [lra|]. apply IH; auto; try lra; lia. Qed.

Lemma bsum_prod n m f g :
  bsum n f * bsum m g = bsum n (fun i => bsum m (fun j => f i * g j)).
Proof. rewrite <- bsum_scal_r. apply bsum_ext. intros. rewrite bsum_scal_l. reflexivity. Qed.

Lemma bsum_rev n f : bsum n f = bsum n (fun i => f (n - 1 - i)%nat).
Proof. induction n as [|n IH]; [reflexivity|].
  rewrite (bsum_S_l n (fun i => f (S n - 1 - i)%nat)).
  change (bsum (S n) f) with (bsum n f + f n). rewrite IH.
  replace (S n - 1 - 0)%nat with n by lia.
  rewrite (bsum_ext n (fun i => f (S n - 1 - S i)%nat) (fun i => f (n - 1 - i)%nat)); [ring|].
  intros i Hi. f_equal. lia. Qed.

(* sums of lists *)
Lemma lsum_app u v : lsum (u ++ v) = lsum u + lsum v.
Proof. induction u as [|a u IH]; simpl; [unfold lsum; simpl; ring|].
  unfold lsum in *. simpl. rewrite IH. ring. Qed.

Lemma lsum_cons a v : lsum (a :: v) = a + lsum v.
Proof. reflexivity. Qed.

Lemma lsum_map_ext {A} (f g : A -> R) l :
  (forall x, In x l -> f x = g x) -> lsum (map f l) = lsum (map g l).
Proof. induction l as [|a l IH]; intros H; [reflexivity|]. simpl.
  rewrite !lsum_cons, IH, H; simpl; auto. intros; apply H; simpl; auto. Qed.

Lemma lsum_map_plus {A} (f g : A -> R) l :
  lsum (map (fun x => f x + g x) l) = lsum (map f l) + lsum (map g l).
Proof. induction l as [|a l IH]; simpl; rewrite ?lsum_cons; [unfold lsum; simpl; ring|].
  rewrite IH; ring. Qed.

Lemma lsum_map_scal {A} (c : R) (f : A -> R) l :
  lsum (map (fun x => c * f x) l) = c * lsum (map f l).
Proof. induction l as [|a l IH]; simpl; rewrite ?lsum_cons; [unfold lsum; simpl; ring|].
  rewrite IH; ring. Qed.

Lemma lsum_map_scal_r {A} (c : R) (f : A -> R) l :
  lsum (map (fun x => f x * c) l) = lsum (map f l) * c.
Proof. induction l as [|a l IH]; simpl; rewrite ?lsum_cons; [unfold lsum; simpl; ring|].
  rewrite IH; ring. Qed.

Lemma lsum_seq n f : lsum (map f (seq 0 n)) = bsum n f.
Proof. induction n as [|n IH]; [reflexivity|].
  rewrite seq_S, map_app, lsum_app, IH. simpl. rewrite lsum_cons. unfold lsum; simpl. ring. Qed.

Lemma lsum_nth v : lsum v = bsum (List.length v) (vget v).
Proof. induction v as [|a v IH]; [reflexivity|].
  simpl List.length. rewrite bsum_S_l, lsum_cons, IH. reflexivity. Qed.

Lemma lsum_flat_map {A B} (f : A -> list B) (g : B -> R) l :
  lsum (map g (flat_map f l)) = lsum (map (fun a => lsum (map g (f a))) l).
Proof. induction l as [|a l IH]; [reflexivity|]. simpl.
  rewrite map_app, lsum_app, IH. reflexivity. Qed.

Lemma lsum_Permutation u v : Permutation u v -> lsum u = lsum v.
Proof. induction 1; rewrite ?lsum_cons; try lra; congruence. Qed.

Lemma lsum_nonneg l : (forall x, In x l -> 0 <= x) -> 0 <= lsum l.
Proof. induction l as [|a l IH]; intros H; [unfold lsum; simpl; lra|].
  rewrite lsum_cons. assert (0 <= a) by (apply H; simpl; auto).
  assert (0 <= lsum l) by (apply IH; intros; apply H; simpl; auto). lra. Qed.

Lemma lprod_app u v : lprod (u ++ v) = lprod u * lprod v.
Proof. induction u as [|a u IH]; unfold lprod in *; simpl; [ring|]. rewrite IH; ring. Qed.

Lemma lprod_Permutation u v : Permutation u v -> lprod u = lprod v.
Proof. induction 1; unfold lprod in *; simpl; try congruence; ring. Qed.

(* ---------------------------------------------------------------- lists *)
Lemma nth_map_seq {A} (f : nat -> A) n i d : (i < n)%nat -> nth i (map f (seq 0 n)) d = f i.
Proof. intros H. rewrite (nth_indep _ d (f 0%nat)) by (rewrite map_length, seq_length; auto).
  rewrite map_nth, seq_nth by auto. reflexivity. Qed.

Lemma nth_map_in {A B} (f : A -> B) l i d d' : (i < List.length l)%nat ->
  nth i (map f l) d = f (nth i l d').
Proof. intros H. rewrite (nth_indep _ d (f d')) by (rewrite map_length; auto). apply map_nth. Qed.

Lemma nth_over {A} (l : list A) i d : (List.length l <= i)%nat -> nth i l d = d.
Proof. apply nth_overflow. Qed.

Lemma list_ext {A} (d : A) u v : List.length u = List.length v ->
  (forall i, (i < List.length u)%nat -> nth i u d = nth i v d) -> u = v.
Proof. revert v. induction u as [|a u IH]; intros [|b v] Hl H; simpl in *; try discriminate; auto.
  f_equal. { apply (H 0%nat); lia. }
  apply IH; [lia|]. intros i Hi. apply (H (S i)); lia. Qed.

Lemma map2_length {A B C} (f : A -> B -> C) u v :
  List.length (map2 f u v) = Nat.min (List.length u) (List.length v).
Proof. revert v; induction u as [|a u IH]; intros [|b v]; simpl; auto. Qed.

Lemma map2_nth {A B C} (f : A -> B -> C) u v i da db dc :
  (i < List.length u)%nat -> (i < List.length v)%nat ->
  nth i (map2 f u v) dc = f (nth i u da) (nth i v db).
Proof. revert v i; induction u as [|a u IH]; intros [|b v] [|i]; simpl; intros; try lia; auto.
  apply IH; lia. Qed.

Lemma map2_map {A B C D E} (f : C -> D -> E) (g : A -> C) (h : B -> D) u v :
  map2 f (map g u) (map h v) = map2 (fun a b => f (g a) (h b)) u v.
Proof. revert v; induction u as [|a u IH]; intros [|b v]; simpl; auto. rewrite IH; auto. Qed.

Lemma map2_same {A B} (f : A -> A -> B) u : map2 f u u = map (fun a => f a a) u.
Proof. induction u as [|a u IH]; simpl; auto. rewrite IH; auto. Qed.

Lemma map2_app {A B C} (f : A -> B -> C) u u' v v' :
  List.length u = List.length v ->
  map2 f (u ++ u') (v ++ v') = map2 f u v ++ map2 f u' v'.
Proof. revert v; induction u as [|a u IH]; intros [|b v]; simpl; intros; try lia; auto.
  rewrite IH; auto. Qed.

Lemma Forall_nth_len (M : mat) c i : Forall (fun r => List.length r = c) M ->
  (i < List.length M)%nat -> List.length (nth i M nil) = c.
Proof. intros H Hi. rewrite Forall_forall in H. apply H, nth_In, Hi. Qed.

(* ---------------------------------------------------------------- vectors *)
Lemma vget_over v i : (List.length v <= i)%nat -> vget v i = 0.
Proof. apply nth_overflow. Qed.

Lemma vec_ext n u v : is_vec n u -> is_vec n v ->
  (forall i, (i < n)%nat -> vget u i = vget v i) -> u = v.
Proof. unfold is_vec; intros Hu Hv H. apply (list_ext 0); [congruence|].
  intros i Hi. apply H. lia. Qed.

Lemma vget_map f v i : (i < List.length v)%nat -> vget (map f v) i = f (vget v i).
Proof. unfold vget; intros; apply nth_map_in; auto. Qed.

Lemma vget_tab f n i : (i < n)%nat -> vget (map f (seq 0 n)) i = f i.
Proof. apply nth_map_seq. Qed.

Lemma vget_app_l u v i : (i < List.length u)%nat -> vget (u ++ v) i = vget u i.
Proof. apply app_nth1. Qed.
Lemma vget_app_r u v i : (List.length u <= i)%nat -> vget (u ++ v) i = vget v (i - List.length u).
Proof. apply app_nth2. Qed.

Lemma vec_tab n v : is_vec n v -> v = map (vget v) (seq 0 n).
Proof. intros H. apply (vec_ext n); auto.
  - unfold is_vec. rewrite map_length, seq_length; auto.
  - intros i Hi. rewrite vget_tab; auto. Qed.

Lemma vget_vscale a v i : vget (vscale a v) i = a * vget v i.
Proof. unfold vscale. destruct (Nat.lt_ge_cases i (List.length v)).
  - rewrite vget_map; auto.
  - rewrite !vget_over; rewrite ?map_length; auto. ring. Qed.

Lemma vget_vadd n u v i : is_vec n u -> is_vec n v -> vget (vadd u v) i = vget u i + vget v i.
Proof. unfold is_vec, vadd; intros Hu Hv. destruct (Nat.lt_ge_cases i n).
  - unfold vget. rewrite (map2_nth _ _ _ _ 0 0); auto; lia.
  - rewrite !vget_over; rewrite ?map2_length; try lia. ring. Qed.

Lemma vget_vsub n u v i : is_vec n u -> is_vec n v -> vget (vsub u v) i = vget u i - vget v i.
Proof. unfold is_vec, vsub; intros Hu Hv. destruct (Nat.lt_ge_cases i n).
  - unfold vget. rewrite (map2_nth _ _ _ _ 0 0); auto; lia.
  - rewrite !vget_over; rewrite ?map2_length; try lia. ring. Qed.

Lemma vget_vmul n u v i : is_vec n u -> is_vec n v -> vget (vmul u v) i = vget u i * vget v i.
Proof. unfold is_vec, vmul; intros Hu Hv. destruct (Nat.lt_ge_cases i n).
  - unfold vget. rewrite (map2_nth _ _ _ _ 0 0); auto; lia.
  - rewrite !vget_over; rewrite ?map2_length; try lia. ring. Qed.

Lemma is_vec_vadd n u v : is_vec n u -> is_vec n v -> is_vec n (vadd u v).
Proof. unfold is_vec, vadd; intros; rewrite map2_length; lia. Qed.
Lemma is_vec_vsub n u v : is_vec n u -> is_vec n v -> is_vec n (vsub u v).
Proof. unfold is_vec, vsub; intros; rewrite map2_length; lia. Qed.
Lemma is_vec_vmul n u v : is_vec n u -> is_vec n v -> is_vec n (vmul u v).
Proof. unfold is_vec, vmul; intros; rewrite map2_length; lia. Qed.
Lemma is_vec_vscale n a v : is_vec n v -> is_vec n (vscale a v).
Proof. unfold is_vec, vscale; intros; rewrite map_length; auto. Qed.
Lemma is_vec_map {A} n f (v : list A) : List.length v = n -> is_vec n (map f v).
Proof. unfold is_vec; intros; rewrite map_length; auto. Qed.
Lemma is_vec_tab n f : is_vec n (map f (seq 0 n)).
Proof. unfold is_vec; rewrite map_length, seq_length; auto. Qed.

Lemma dot_bsum n u v : is_vec n u -> is_vec n v -> dot u v = bsum n (fun i => vget u i * vget v i).
Proof. unfold is_vec. revert n v; induction u as [|a u IH]; intros n [|b v] Hu Hv; simpl in *;
  subst n; try discriminate; try reflexivity.
  rewrite bsum_S_l. unfold vget at 1 2; simpl. f_equal.
  apply (IH (List.length u) v); auto. Qed.

Lemma dot_bsum_l n u v : is_vec n u -> dot u v = bsum n (fun i => vget u i * vget v i).
Proof. unfold is_vec. revert n v; induction u as [|a u IH]; intros n v Hu; simpl in *; subst n.
  - destruct v; reflexivity.
  - rewrite bsum_S_l. destruct v as [|b v]; simpl.
    + rewrite bsum_0; unfold vget; simpl; [ring|]. intros i _; destruct i; ring.
    + f_equal. apply (IH (List.length u)); auto. Qed.

Lemma dot_comm u v : dot u v = dot v u.
Proof. revert v; induction u as [|a u IH]; intros [|b v]; simpl; auto. rewrite IH; ring. Qed.

Lemma dot_app u u' v v' : List.length u = List.length v ->
  dot (u ++ u') (v ++ v') = dot u v + dot u' v'.
Proof. revert v; induction u as [|a u IH]; intros [|b v]; simpl; intros; try lia.
  - ring.
  - rewrite IH by lia. ring. Qed.

(* ---------------------------------------------------------------- matrices *)
Lemma is_mat_len r c M : is_mat r c M -> List.length M = r.
Proof. intros [H _]; auto. Qed.

Lemma is_mat_row r c M i : is_mat r c M -> (i < r)%nat -> is_vec c (nth i M nil).
Proof. intros [Hl HF] Hi. apply (Forall_nth_len M c i HF). lia. Qed.

Lemma mget_over_r r c M i j : is_mat r c M -> (r <= i)%nat -> mget M i j = 0.
Proof. intros [Hl _] Hi. unfold mget. rewrite (nth_overflow M) by lia. destruct j; auto. Qed.

Lemma mget_over_c r c M i j : is_mat r c M -> (c <= j)%nat -> mget M i j = 0.
Proof. intros HM Hj. destruct (Nat.lt_ge_cases i r) as [Hi|Hi].
  - unfold mget. apply nth_overflow. rewrite (is_mat_row r c M i HM Hi). auto.
  - apply (mget_over_r r c); auto. Qed.

Lemma mat_ext r c A B : is_mat r c A -> is_mat r c B ->
  (forall i j, (i < r)%nat -> (j < c)%nat -> mget A i j = mget B i j) -> A = B.
Proof. intros HA HB H.
  assert (HAl := is_mat_len r c A HA). assert (HBl := is_mat_len r c B HB).
  apply (list_ext nil); [congruence|]. intros i Hi. rewrite HAl in Hi.
  apply (vec_ext c).
  - apply (is_mat_row r c A i HA Hi).
  - apply (is_mat_row r c B i HB Hi).
  - intros j Hj. apply (H i j Hi Hj). Qed.

Lemma is_mat_tab r c f : is_mat r c (map (fun i => map (f i) (seq 0 c)) (seq 0 r)).
Proof. split; [rewrite map_length, seq_length; auto|].
  rewrite Forall_forall. intros x Hx. apply in_map_iff in Hx. destruct Hx as [i [<- _]].
  rewrite map_length, seq_length; auto. Qed.

Lemma mget_tab r c f i j : (i < r)%nat -> (j < c)%nat ->
  mget (map (fun i => map (f i) (seq 0 c)) (seq 0 r)) i j = f i j.
Proof. intros Hi Hj. unfold mget. rewrite nth_map_seq, nth_map_seq; auto. Qed.

Lemma mat_tab r c M : is_mat r c M -> M = map (fun i => map (mget M i) (seq 0 c)) (seq 0 r).
Proof. intros H. apply (mat_ext r c); auto using is_mat_tab.
  intros. rewrite mget_tab; auto. Qed.

Lemma ncols_is_mat r c M : is_mat r c M -> (0 < r)%nat -> ncols M = c.
Proof. intros [Hl HF] Hr. destruct M as [|row M]; simpl in *; [lia|].
  inversion HF; auto. Qed.


Lemma is_mat_map r c (M : mat) g : List.length M = r ->
  (forall row, In row M -> List.length (g row) = c) -> is_mat r c (map g M).
Proof. intros Hl H. split; [rewrite map_length; auto|]. rewrite Forall_forall.
  intros x Hx. apply in_map_iff in Hx. destruct Hx as [y [<- Hy]]; auto. Qed.

Lemma mget_map r c M g i j : is_mat r c M -> (i < r)%nat ->
  mget (map g M) i j = vget (g (nth i M nil)) j.
Proof. intros [Hl _] Hi. unfold mget, vget. rewrite (nth_map_in g M i nil nil); auto. rewrite Hl; auto. Qed.

Lemma is_mat_map2 r c c1 c2 (A : mat) (B : mat) g : is_mat r c1 A -> is_mat r c2 B ->
  (forall x y, is_vec c1 x -> is_vec c2 y -> is_vec c (g x y)) -> is_mat r c (map2 g A B).
Proof. intros [HAl HAF] [HBl HBF] H. split; [rewrite map2_length; lia|].
  assert (HL : List.length B = List.length A) by lia. clear HAl HBl.
  revert B HL HBF. induction A as [|a A IH]; intros [|b B] HL HBF; simpl; try constructor; try discriminate.
  - apply H; [inversion HAF|inversion HBF]; auto.
  - inversion HAF; inversion HBF; subst. apply IH; auto. Qed.

Lemma is_mat_madd r c A B : is_mat r c A -> is_mat r c B -> is_mat r c (madd A B).
Proof. intros. apply (is_mat_map2 r c c c); auto using is_vec_vadd. Qed.
Lemma is_mat_msub r c A B : is_mat r c A -> is_mat r c B -> is_mat r c (msub A B).
Proof. intros. apply (is_mat_map2 r c c c); auto using is_vec_vsub. Qed.
Lemma is_mat_mscale r c a A : is_mat r c A -> is_mat r c (mscale a A).
Proof. intros [Hl HF]. apply is_mat_map; auto. intros row Hr. rewrite Forall_forall in HF.
  apply is_vec_vscale, HF, Hr. Qed.

Lemma mget_madd r c A B i j : is_mat r c A -> is_mat r c B ->
  mget (madd A B) i j = mget A i j + mget B i j.
Proof. intros HA HB. destruct (Nat.lt_ge_cases i r) as [Hi|Hi].
  - unfold mget, madd. rewrite (map2_nth vadd A B i nil nil);
    try (rewrite ?(is_mat_len _ _ _ HA), ?(is_mat_len _ _ _ HB); auto).
    apply (vget_vadd c); eapply is_mat_row; eauto.
  - rewrite !(mget_over_r r c); auto using is_mat_madd. ring. Qed.
Lemma mget_msub r c A B i j : is_mat r c A -> is_mat r c B ->
  mget (msub A B) i j = mget A i j - mget B i j.
Proof. intros HA HB. destruct (Nat.lt_ge_cases i r) as [Hi|Hi].
  - unfold mget, msub. rewrite (map2_nth vsub A B i nil nil);
    try (rewrite ?(is_mat_len _ _ _ HA), ?(is_mat_len _ _ _ HB); auto).
    apply (vget_vsub c); eapply is_mat_row; eauto.
  - rewrite !(mget_over_r r c); auto using is_mat_msub. ring. Qed.
Lemma mget_mscale r c a A i j : is_mat r c A -> mget (mscale a A) i j = a * mget A i j.
Proof. intros HA. destruct (Nat.lt_ge_cases i r) as [Hi|Hi].
  - unfold mscale. rewrite (mget_map r c); auto. rewrite vget_vscale; auto.
  - rewrite !(mget_over_r r c); auto using is_mat_mscale. ring. Qed.

Lemma is_mat_mapseq c r (g : nat -> vec) : (forall j, (j < c)%nat -> is_vec r (g j)) ->
  is_mat c r (map g (seq 0 c)).
Proof. intros H. split; [rewrite map_length, seq_length; auto|].
  rewrite Forall_forall. intros x Hx. apply in_map_iff in Hx. destruct Hx as [j [<- Hj]].
  apply in_seq in Hj. apply H; lia. Qed.

Lemma is_mat_mT r c M : is_mat r c M -> (0 < r)%nat -> is_mat c r (mT M).
Proof. intros HM Hr. unfold mT. rewrite (ncols_is_mat r c M HM Hr).
  apply is_mat_mapseq. intros j Hj. apply is_vec_map. apply (is_mat_len r c); auto. Qed.

Lemma mget_mT r c M i j : is_mat r c M -> (0 < r)%nat -> mget (mT M) i j = mget M j i.
Proof. intros HM Hr. destruct (Nat.lt_ge_cases i c) as [Hi|Hi].
  - unfold mT. rewrite (ncols_is_mat r c M HM Hr). unfold mget. rewrite nth_map_seq by auto.
    destruct (Nat.lt_ge_cases j r) as [Hj|Hj].
    + rewrite (nth_map_in _ M j 0 nil); auto. rewrite (is_mat_len r c); auto.
    + rewrite (nth_overflow M), (nth_overflow (map _ M)); rewrite ?map_length, ?(is_mat_len r c M); auto.
      destruct i; auto.
  - rewrite (mget_over_r c r), (mget_over_c r c M); auto using is_mat_mT. Qed.

Lemma mT_mT r c M : is_mat r c M -> (0 < r)%nat -> (0 < c)%nat -> mT (mT M) = M.
Proof. intros HM Hr Hc. assert (HT := is_mat_mT r c M HM Hr).
  apply (mat_ext r c); auto using is_mat_mT.
  intros i j Hi Hj. rewrite (mget_mT c r), (mget_mT r c); auto. Qed.

Lemma is_vec_matvec r c M v : is_mat r c M -> is_vec r (matvec M v).
Proof. intros HM. apply is_vec_map, (is_mat_len r c); auto. Qed.

Lemma vget_matvec r c M v i : is_mat r c M -> is_vec c v ->
  vget (matvec M v) i = bsum c (fun k => mget M i k * vget v k).
Proof. intros HM Hv. destruct (Nat.lt_ge_cases i r) as [Hi|Hi].
  - unfold matvec, vget at 1. rewrite (nth_map_in _ M i 0 nil) by (rewrite (is_mat_len r c M); auto).
    rewrite (dot_bsum c); auto. eapply is_mat_row; eauto.
  - rewrite vget_over by (rewrite (is_vec_matvec r c M v); auto).
    symmetry. apply bsum_0. intros k _. rewrite (mget_over_r r c); auto. ring. Qed.

Lemma matmul_nil_r A : matmul A nil = map (fun _ => nil) A.
Proof. reflexivity. Qed.

Lemma is_mat_matmul r n c A B : is_mat r n A -> is_mat n c B -> (0 < n)%nat ->
  is_mat r c (matmul A B).
Proof. intros HA HB Hn. apply is_mat_map; [apply (is_mat_len r n); auto|].
  intros row _. rewrite map_length. apply (is_mat_len c n), (is_mat_mT n c); auto. Qed.

Lemma mget_matmul r n c A B i j : is_mat r n A -> is_mat n c B -> (0 < n)%nat ->
  mget (matmul A B) i j = bsum n (fun k => mget A i k * mget B k j).
Proof. intros HA HB Hn. destruct (Nat.lt_ge_cases i r) as [Hi|Hi].
  2:{ rewrite (mget_over_r r c) by (auto; eapply is_mat_matmul; eauto).
      symmetry. apply bsum_0. intros k _. rewrite (mget_over_r r n A); auto. ring. }
  destruct (Nat.lt_ge_cases j c) as [Hj|Hj].
  2:{ rewrite (mget_over_c r c) by (auto; eapply is_mat_matmul; eauto).
      symmetry. apply bsum_0. intros k _. rewrite (mget_over_c n c B); auto. ring. }
  unfold matmul. rewrite (mget_map r n); auto. assert (HT := is_mat_mT n c B HB Hn).
  unfold vget. rewrite (nth_map_in _ (mT B) j 0 nil) by (rewrite (is_mat_len c n); auto).
  rewrite (dot_bsum n).
  - apply bsum_ext. intros k Hk. f_equal. change (mget (mT B) j k = mget B k j).
    rewrite (mget_mT n c); auto.
  - eapply is_mat_row; eauto.
  - eapply is_mat_row; eauto. Qed.

Lemma is_mat_eye n : is_mat n n (eye n).
Proof. apply is_mat_tab. Qed.
Lemma mget_eye n i j : (i < n)%nat -> (j < n)%nat ->
  mget (eye n) i j = if Nat.eqb i j then 1 else 0.
Proof. intros. unfold eye. rewrite (mget_tab n n (fun i j => if Nat.eqb i j then 1 else 0)); auto. Qed.

Lemma is_mat_mdiag v n : is_vec n v -> is_mat n n (mdiag v).
Proof. unfold is_vec; intros <-. apply is_mat_tab. Qed.
Lemma mget_mdiag v n i j : is_vec n v -> (i < n)%nat -> (j < n)%nat ->
  mget (mdiag v) i j = if Nat.eqb i j then vget v i else 0.
Proof. unfold is_vec; intros <- Hi Hj. unfold mdiag.
  rewrite (mget_tab _ _ (fun i j => if Nat.eqb i j then nth i v 0 else 0)); auto. Qed.

Lemma is_mat_nil c : is_mat 0 c nil.
Proof. split; auto. Qed.

(* hcat *)
Lemma is_mat_hcat r c1 c2 A B : is_mat r c1 A -> is_mat r c2 B -> is_mat r (c1 + c2) (hcat A B).
Proof. intros. apply (is_mat_map2 r _ c1 c2); auto. unfold is_vec; intros. rewrite app_length; lia. Qed.
Lemma mget_hcat r c1 c2 A B i j : is_mat r c1 A -> is_mat r c2 B ->
  mget (hcat A B) i j = if Nat.ltb j c1 then mget A i j else mget B i (j - c1).
Proof. intros HA HB. destruct (Nat.lt_ge_cases i r) as [Hi|Hi].
  - unfold mget, hcat. rewrite (map2_nth _ A B i nil nil);
    try (rewrite ?(is_mat_len _ _ _ HA), ?(is_mat_len _ _ _ HB); auto).
    assert (Hra := is_mat_row r c1 A i HA Hi). unfold is_vec in Hra.
    destruct (Nat.ltb_spec j c1).
    + apply app_nth1; lia.
    + rewrite app_nth2 by lia. rewrite Hra; auto.
  - rewrite (mget_over_r r (c1 + c2)), !(mget_over_r r c1), (mget_over_r r c2) by auto using is_mat_hcat.
    destruct (Nat.ltb j c1); auto. Qed.

(* vertical concatenation *)
Lemma is_mat_app r1 r2 c A B : is_mat r1 c A -> is_mat r2 c B -> is_mat (r1 + r2) c (A ++ B).
Proof. intros [? ?] [? ?]. split; [rewrite app_length; lia|]. apply Forall_app; auto. Qed.
Lemma mget_app r1 A B i j : List.length A = r1 ->
  mget (A ++ B) i j = if Nat.ltb i r1 then mget A i j else mget B (i - r1) j.
Proof. intros <-. unfold mget. destruct (Nat.ltb_spec i (List.length A)).
  - rewrite app_nth1; auto.
  - rewrite app_nth2; auto. Qed.

(* columns *)
Lemma is_vec_colv r M k : is_vec r (colv r M k).
Proof. apply is_vec_tab. Qed.
Lemma vget_colv r M k i : (i < r)%nat -> vget (colv r M k) i = mget M i k.
Proof. intros. unfold colv. rewrite vget_tab; auto. Qed.

(* ---------------------------------------------------------------- take_at *)
Lemma take_at_length {A} (d : A) l locs : List.length (take_at d l locs) = List.length locs.
Proof. apply map_length. Qed.

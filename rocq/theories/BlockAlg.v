(* BlockAlg.v -- block matrices: hcat / hstack / vstack and their interaction with products and norms. *)
From Verif Require Export MatAlg.
#[local] Open Scope nat_scope.

#[export] Hint Resolve is_mat_hcat is_mat_app : mat.

Lemma map2_app_assoc : forall (A B C : mat), length A = length B -> length B = length C ->
  hcat (hcat A B) C = hcat A (hcat B C).
Proof. induction A as [|a A IH]; intros [|b B] [|c C]; cbn; try discriminate; auto. intros [=] [=].
  rewrite app_assoc. f_equal. apply IH; auto. Qed.
Lemma hcat_assoc r a b c A B C : is_mat r a A -> is_mat r b B -> is_mat r c C ->
  hcat (hcat A B) C = hcat A (hcat B C).
Proof. intros [? _] [? _] [? _]. apply map2_app_assoc; lia. Qed.


Lemma blocks_nrows r cs l : blocks r cs l -> Forall (fun M => length M = r) l.
Proof. induction 1; constructor; auto. destruct H; auto. Qed.

Lemma fold_hcat r cs l : blocks r cs l -> forall M c, is_mat r c M -> is_mat r (c + lsumn cs) (fold_left hcat l M).
Proof. induction 1; intros M0 c HM; cbn. { rewrite Nat.add_0_r; auto. }
  rewrite Nat.add_assoc. apply IHForall2. mt. Qed.
Lemma fold_hcat_pull r l : Forall (fun M => length M = r) l -> forall A B, length A = r -> length B = r ->
  fold_left hcat l (hcat A B) = hcat A (fold_left hcat l B).
Proof. induction 1; intros A B HA HB; cbn; auto. rewrite map2_app_assoc by lia. apply IHForall; auto.
  unfold hcat. rewrite map2_length; lia. Qed.
Lemma hstack_cons r M l : length M = r -> Forall (fun M => length M = r) l -> l <> [] ->
  hstack (M :: l) = hcat M (hstack l).
Proof. intros HM HF Hl. destruct l as [|N l]; [congruence|]. inversion HF; subst. cbn.
  apply (fold_hcat_pull (length M)); auto. Qed.
Lemma hstack_one M : hstack [M] = M. Proof. reflexivity. Qed.
Lemma is_mat_hstack r cs l : blocks r cs l -> l <> [] -> is_mat r (lsumn cs) (hstack l).
Proof. intros H Hl. destruct H; [congruence|]. cbn. apply fold_hcat; auto. Qed.
Lemma blocks_cons r c cs M l : blocks r (c :: cs) (M :: l) <-> is_mat r c M /\ blocks r cs l.
Proof. split; [inversion 1; auto|intros [? ?]; constructor; auto]. Qed.

(* induction over a non-empty list of blocks *)
Lemma hstack_step r c cs M l : is_mat r c M -> blocks r cs l -> l <> [] -> hstack (M :: l) = hcat M (hstack l).
Proof. intros [? _] HB Hl. eapply hstack_cons; eauto using blocks_nrows. Qed.

Lemma is_mat_vstack c rs l : Forall2 (fun r M => is_mat r c M) rs l -> is_mat (lsumn rs) c (vstack l).
Proof. induction 1; cbn; [split; auto|]. apply is_mat_app; auto. Qed.

(* products *)
Lemma matmul_hcat_app r a b c A B C D : is_mat r a A -> is_mat r b B -> is_mat a c C -> is_mat b c D ->
  0 < a -> 0 < b -> matmul (hcat A B) (C ++ D) = madd (matmul A C) (matmul B D).
Proof. intros HA HB HC HD Ha Hb. apply (mat_ext r c); try mt. intros i j Hi Hj.
  rewrite (mget_matmul r (a + b) c) by mt. rewrite (mget_madd r c) by mt. rewrite (mget_matmul r a c), (mget_matmul r b c) by mt.
  rewrite bsum_split. f_equal; apply bsum_ext; intros k Hk; rewrite (mget_hcat r a b), (mget_app a) by (auto; apply HC).
  - destruct (Nat.ltb_spec k a); [reflexivity|lia].
  - destruct (Nat.ltb_spec (a + k) a); [lia|]. replace (a + k - a) with k by lia. reflexivity. Qed.
Lemma matmul_hcat_r r n b c A B C : is_mat r n A -> is_mat n b B -> is_mat n c C -> 0 < n ->
  matmul A (hcat B C) = hcat (matmul A B) (matmul A C).
Proof. intros HA HB HC Hn. apply (mat_ext r (b + c)); try mt. intros i j Hi Hj.
  rewrite (mget_matmul r n (b + c)) by mt. rewrite (mget_hcat r b c) by mt. destruct (Nat.ltb_spec j b).
  - rewrite (mget_matmul r n b) by mt. apply bsum_ext; intros. rewrite (mget_hcat n b c) by mt. destruct (Nat.ltb_spec j b); [auto|lia].
  - rewrite (mget_matmul r n c) by mt. apply bsum_ext; intros. rewrite (mget_hcat n b c) by mt. destruct (Nat.ltb_spec j b); [lia|auto]. Qed.
Lemma matmul_app_l r1 r2 n c A B C : is_mat r1 n A -> is_mat r2 n B -> is_mat n c C -> 0 < n ->
  matmul (A ++ B) C = matmul A C ++ matmul B C.
Proof. intros. unfold matmul. rewrite map_app. reflexivity. Qed.

Definition msum (r c : nat) (l : list mat) : mat := fold_right madd (mzeros r c) l.
Lemma is_mat_mzeros r c : is_mat r c (mzeros r c).
Proof. split; [apply repeat_length|]. apply Forall_forall. intros x Hx. apply repeat_spec in Hx. subst. apply repeat_length. Qed.
#[export] Hint Resolve is_mat_mzeros : mat.
Lemma mget_mzeros r c i j : mget (mzeros r c) i j = 0%R.
Proof. unfold mget, mzeros. destruct (Nat.lt_ge_cases i r).
  - rewrite (nth_indep _ [] (repeat 0%R c)) by (rewrite repeat_length; auto). rewrite nth_repeat. apply nth_repeat.
  - rewrite (nth_over _ i) by (rewrite repeat_length; auto). destruct j; auto. Qed.
Lemma madd_zeros_r r c A : is_mat r c A -> madd A (mzeros r c) = A.
Proof. intros HA. apply (mat_ext r c); try mt. intros. rewrite (mget_madd r c), mget_mzeros by mt. ring. Qed.
Lemma madd_zeros_l r c A : is_mat r c A -> madd (mzeros r c) A = A.
Proof. intros HA. apply (mat_ext r c); try mt. intros. rewrite (mget_madd r c), mget_mzeros by mt. ring. Qed.
Lemma is_mat_msum r c l : Forall (is_mat r c) l -> is_mat r c (msum r c l).
Proof. induction 1; cbn; mt. Qed.

Lemma matmul_hstack_vstack r c ds As Ds : blocks r ds As -> Forall2 (fun d D => is_mat d c D) ds Ds ->
  Forall (lt 0) ds -> ds <> [] ->
  matmul (hstack As) (vstack Ds) = msum r c (map2 matmul As Ds).
Proof. intros HA. revert Ds. induction HA as [|d A ds As HA HAs IH]; intros Ds HD Hp Hn; [congruence|].
  inversion HD as [|? D ? Ds' HDd HDs]; subst. apply Forall_cons_iff in Hp. destruct Hp as [Hd Hp].
  destruct ds as [|d2 ds].
  - inversion HAs; subst. inversion HDs; subst. cbn. rewrite app_nil_r. rewrite madd_zeros_r by mt. reflexivity.
  - assert (As <> []) by (intros ->; inversion HAs).
    rewrite (hstack_step r d (d2 :: ds)) by auto. unfold vstack. cbn [concat]. fold (vstack Ds').
    assert (HH := is_mat_hstack r (d2 :: ds) As HAs H). assert (HV := is_mat_vstack c (d2 :: ds) Ds' HDs).
    assert (0 < lsumn (d2 :: ds)). { cbn. apply Forall_cons_iff in Hp. lia. }
    rewrite (matmul_hcat_app r d (lsumn (d2 :: ds)) c) by auto. rewrite IH by (auto; congruence). reflexivity. Qed.

Lemma matmul_hstack_r r n cs A Bs : is_mat r n A -> blocks n cs Bs -> 0 < n -> Bs <> [] ->
  matmul A (hstack Bs) = hstack (map (matmul A) Bs).
Proof. intros HA HB Hn. induction HB as [|c B cs Bs HB HBs IH]; intros HN; [congruence|].
  destruct Bs as [|B2 Bs]; [reflexivity|]. assert (B2 :: Bs <> []) by congruence.
  rewrite (hstack_step n c cs) by auto. cbn [map]. assert (HH := is_mat_hstack n cs _ HBs H).
  rewrite (matmul_hcat_r r n c (lsumn cs)) by auto. rewrite IH by auto. symmetry.
  assert (HM : blocks r cs (map (matmul A) (B2 :: Bs))).
  { clear - HBs HA Hn. unfold blocks in *. induction HBs; cbn; constructor; auto. mt. }
  apply (hstack_step r c cs); auto; try mt. cbn. congruence. Qed.

(* norms *)
Lemma mnorm2_hcat r a b A B : is_mat r a A -> is_mat r b B -> mnorm2 (hcat A B) = (mnorm2 A + mnorm2 B)%R.
Proof. intros HA HB. rewrite (mnorm2_bsum r (a + b)), (mnorm2_bsum r a), (mnorm2_bsum r b) by mt.
  rewrite <- bsum_plus. apply bsum_ext. intros i Hi. rewrite bsum_split. f_equal; apply bsum_ext; intros j Hj;
  rewrite (mget_hcat r a b) by auto.
  - destruct (Nat.ltb_spec j a); [auto|lia].
  - destruct (Nat.ltb_spec (a + j) a); [lia|]. replace (a + j - a) with j by lia. auto. Qed.
Lemma msub_hcat r a b A B C D : is_mat r a A -> is_mat r b B -> is_mat r a C -> is_mat r b D ->
  msub (hcat A B) (hcat C D) = hcat (msub A C) (msub B D).
Proof. intros HA HB HC HD. apply (mat_ext r (a + b)); try mt. intros i j Hi Hj.
  rewrite (mget_msub r (a + b)) by mt. rewrite !(mget_hcat r a b) by mt. destruct (Nat.ltb j a).
  - rewrite (mget_msub r a) by mt. auto.
  - rewrite (mget_msub r b) by mt. auto. Qed.
Lemma mnorm2_hstack r cs l : blocks r cs l -> l <> [] -> mnorm2 (hstack l) = lsum (map mnorm2 l).
Proof. induction 1 as [|c M cs l HM HB IH]; intros Hl; [congruence|]. destruct l as [|N l].
  - cbn. unfold lsum; cbn; ring.
  - assert (N :: l <> []) by congruence. rewrite (hstack_step r c cs) by auto.
    rewrite (mnorm2_hcat r c (lsumn cs)) by (auto using is_mat_hstack). rewrite IH by auto. reflexivity. Qed.
Lemma msub_hstack r cs l l' : blocks r cs l -> blocks r cs l' -> l <> [] ->
  msub (hstack l) (hstack l') = hstack (map2 msub l l').
Proof. intros H. revert l'. induction H as [|c M cs l HM HB IH]; intros l' H' Hl; [congruence|].
  inversion H' as [|? M' ? l2 HM' HB']; subst. destruct l as [|N l].
  - inversion HB; subst. inversion HB'; subst. reflexivity.
  - assert (N :: l <> []) by congruence. destruct l2 as [|N' l2]; [inversion HB'; subst; inversion HB|].
    rewrite (hstack_step r c cs M (N :: l)), (hstack_step r c cs M') by (auto; congruence).
    rewrite (msub_hcat r c (lsumn cs)) by (auto; apply is_mat_hstack; auto; congruence).
    rewrite IH by auto. symmetry. assert (HS : blocks r cs (map2 msub (N :: l) (N' :: l2))).
    { clear - HB HB'. unfold blocks in *. remember (N :: l) as l0. remember (N' :: l2) as k0.
      clear Heql0 Heqk0. revert k0 HB'. induction HB; intros k0 HB'; inversion HB'; subst; cbn; constructor; auto. mt. }
    cbn [map2] in *. apply (hstack_step r c cs); auto; try mt. congruence. Qed.

(* columns of a block row: the column number jb of block b *)
Lemma colv_hcat_l r a b A B j : is_mat r a A -> is_mat r b B -> j < a -> colv r (hcat A B) j = colv r A j.
Proof. intros. apply (vec_ext r); try mt. intros. rewrite !vget_colv by auto. rewrite (mget_hcat r a b) by auto.
  destruct (Nat.ltb_spec j a); [auto|lia]. Qed.
Lemma colv_hcat_r r a b A B j : is_mat r a A -> is_mat r b B -> colv r (hcat A B) (a + j) = colv r B j.
Proof. intros. apply (vec_ext r); try mt. intros. rewrite !vget_colv by auto. rewrite (mget_hcat r a b) by auto.
  destruct (Nat.ltb_spec (a + j) a); [lia|]. f_equal. lia. Qed.

(* slicing columns *)
Lemma slice_app_l {A} (u v : list A) : slice 0 (length u) (u ++ v) = u.
Proof. unfold slice. cbn [skipn]. rewrite Nat.sub_0_r. rewrite firstn_app, firstn_all, Nat.sub_diag. cbn. apply app_nil_r. Qed.
Lemma slice_app_r {A} (u v : list A) a b : slice (length u + a) (length u + b) (u ++ v) = slice a b v.
Proof. unfold slice. rewrite skipn_app. replace (length u + a - length u) with a by lia.
  rewrite (skipn_all2 u) by lia. cbn [app]. f_equal. lia. Qed.
Lemma slice_length {A} (l : list A) a b : a <= b -> b <= length l -> length (slice a b l) = b - a.
Proof. intros. unfold slice. rewrite firstn_length, skipn_length. lia. Qed.
Lemma slice_nth {A} (l : list A) a b i d : i < b - a -> nth i (slice a b l) d = nth (a + i) l d.
Proof. unfold slice. revert l. generalize (b - a) as n. intros n l Hi. revert n Hi l. induction a as [|a IH].
  - cbn [skipn Nat.add]. induction i as [|i IHi]; intros [|n] Hi [|x l]; cbn; auto; try lia. apply IHi; lia.
  - intros n Hi [|x l]; [cbn; rewrite firstn_nil; destruct i; auto|]. cbn [skipn Nat.add nth]. apply IH; auto. Qed.

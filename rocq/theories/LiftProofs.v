(* LiftProofs.v -- lifting maps (C49). *)
From Verif Require Export LiftModel LinAlg.
From Verif Require AffProofs.
#[local] Open Scope R_scope.

(* ---- powers ---- *)
Lemma Int_part_IZR z : Int_part (IZR z) = z.
Proof.
  destruct (base_Int_part (IZR z)) as [H1 H2]. apply le_IZR in H1.
  assert (H3 : (z < Int_part (IZR z) + 1)%Z) by (apply lt_IZR; rewrite plus_IZR; lra). lia.
Qed.
Lemma is_int_ok p : is_int p = true <-> integer p.
Proof.
  unfold is_int, integer. destruct (Req_EM_T (IZR (Int_part p)) p) as [E|N]; split; intros H; auto; try discriminate.
  - exists (Int_part p). auto.
  - destruct H as [z ->]. rewrite Int_part_IZR in N. congruence.
Qed.
Lemma is_int_IZR z : is_int (IZR z) = true. Proof. apply is_int_ok. now exists z. Qed.
Lemma odd_int_IZR z : odd_int (IZR z) = Z.odd z.
Proof. unfold odd_int. now rewrite is_int_IZR, Int_part_IZR. Qed.
Lemma npow_0 x : npow x 0 = F 1.
Proof. unfold npow. destruct (Req_EM_T 0 0); [reflexivity|congruence]. Qed.
Lemma npow_pos x p : 0 < x -> npow (F x) p = F (Rpower x p).
Proof.
  intros H. unfold npow. destruct (Req_EM_T p 0) as [->|]; [now rewrite Rpower_O|]. destruct (Rlt_dec 0 x); [reflexivity|lra].
Qed.
Lemma npow_neg x z : x < 0 -> npow (F x) (IZR z) = F (if Z.odd z then - Rpower (- x) (IZR z) else Rpower (- x) (IZR z)).
Proof.
  intros H. unfold npow. destruct (Req_EM_T (IZR z) 0) as [E|].
  - apply eq_IZR_R0 in E. subst. cbn. now rewrite Rpower_O by lra.
  - destruct (Rlt_dec 0 x); [lra|]. destruct (Rlt_dec x 0); [|lra]. now rewrite is_int_IZR, odd_int_IZR.
Qed.
Lemma npow_neg_nan x p : x < 0 -> is_int p = false -> npow (F x) p = NaN.
Proof.
  intros H Hp. unfold npow. destruct (Req_EM_T p 0) as [->|].
  - change 0 with (IZR 0) in Hp. rewrite is_int_IZR in Hp. discriminate.
  - destruct (Rlt_dec 0 x); [lra|]. destruct (Rlt_dec x 0); [|lra]. now rewrite Hp.
Qed.
Lemma npow_zero_pos p : 0 < p -> npow (F 0) p = F 0.
Proof. intros H. unfold npow. destruct (Req_EM_T p 0); [lra|]. destruct (Rlt_dec 0 0); [lra|]. destruct (Rlt_dec 0 p); [reflexivity|lra]. Qed.
Lemma npow_zero_neg p : p < 0 -> npow (F 0) p = PInf.
Proof. intros H. unfold npow. destruct (Req_EM_T p 0); [lra|]. destruct (Rlt_dec 0 0); [lra|]. destruct (Rlt_dec 0 p); [lra|reflexivity]. Qed.
(* natural powers are products *)
Lemma npow_nat x n : npow (F x) (INR n) = F (x ^ n).
Proof.
  destruct (Rtotal_order x 0) as [H|[->|H]].
  - rewrite INR_IZR_INZ. rewrite npow_neg by auto. f_equal. rewrite <- INR_IZR_INZ, Rpower_pow by lra.
    assert (E : forall m, (if Z.odd (Z.of_nat m) then - (- x) ^ m else (- x) ^ m) = x ^ m).
    { induction m as [|m IH]; [reflexivity|]. rewrite Nat2Z.inj_succ, Z.odd_succ, <- Z.negb_odd. cbn [pow]. rewrite <- IH. destruct (Z.odd (Z.of_nat m)); cbn; ring. }
    apply E.
  - destruct n as [|n]; [apply npow_0|]. rewrite npow_zero_pos by (apply lt_0_INR; lia). rewrite pow_i by lia. reflexivity.
  - rewrite npow_pos by auto. now rewrite Rpower_pow.
Qed.
Lemma npow_1 x : npow (F x) 1 = F x.
Proof. change 1 with (INR 1). rewrite npow_nat. f_equal. cbn. ring. Qed.
Lemma npow_2 x : npow (F x) 2 = F (x * x).
Proof. change 2 with (INR 2). rewrite npow_nat. f_equal. cbn. ring. Qed.

Lemma Rpower_root x p : 0 < x -> p <> 0 -> Rpower (Rpower x p) (1 / p) = x.
Proof. intros H Hp. rewrite Rpower_mult. replace (p * (1 / p)) with 1 by (field; auto). now apply Rpower_1. Qed.
Lemma Rpower_gt0 x p : 0 < Rpower x p. Proof. unfold Rpower. apply exp_pos. Qed.

Lemma root_power p x : p <> 0 -> p <> 1 -> (npow (npow (F x) p) (1 / p) = F x <-> recoverable p x).
Proof.
  intros H0 H1. assert (N0 : 1 / p <> 0) by (unfold Rdiv; rewrite Rmult_1_l; now apply Rinv_neq_0_compat). unfold recoverable.
  destruct (Rtotal_order x 0) as [H|[->|H]].
  - destruct (is_int p) eqn:EI.
    + apply is_int_ok in EI. destruct EI as [z ->]. rewrite npow_neg by auto. pose proof (Rpower_gt0 (- x) (IZR z)) as P.
      destruct (Z.odd z) eqn:EO.
      * destruct (Z.eq_dec z (-1)) as [->|Nz].
        -- split; [intros _; right; split; auto|]. intros _. replace (1 / IZR (-1)) with (IZR (-1)) by (cbn; field). rewrite npow_neg by lra. cbn [Z.odd].
           f_equal. rewrite Ropp_involutive. rewrite Rpower_mult. replace (-1 * -1) with 1 by ring. rewrite Rpower_1 by lra. ring.
        -- assert (NI : is_int (1 / IZR z) = false).
           { apply not_true_iff_false. intros K. apply is_int_ok in K. destruct K as [w Ew].
             assert (E1 : IZR z * IZR w = 1) by (rewrite <- Ew; field; auto). rewrite <- mult_IZR in E1. apply eq_IZR in E1.
             assert (z = 1 \/ z = -1)%Z as [->|]; [|apply H1; reflexivity|contradiction].
             apply Z.mul_eq_1 in E1. exact E1. }
           rewrite npow_neg_nan by (auto; lra). split; [discriminate|]. intros [K|[_ K]]; [lra|]. exfalso. apply Nz. apply eq_IZR. exact K.
      * rewrite npow_pos by auto. rewrite Rpower_root by (auto; lra). split.
        -- intros [= K]. lra.
        -- intros [K|[_ K]]; [lra|]. assert (z = (-1)%Z) by (apply eq_IZR; exact K). subst z. discriminate.
    + rewrite npow_neg_nan by auto. split.
      * unfold npow. destruct (Req_EM_T (1 / p) 0); [contradiction|discriminate].
      * intros [K|[_ ->]]; [lra|]. change (-1) with (IZR (-1)) in EI. rewrite is_int_IZR in EI. discriminate.
  - split; [intros _; left; lra|]. intros _. destruct (Rtotal_order p 0) as [K|[K|K]]; [|contradiction|].
    + rewrite npow_zero_neg by auto. unfold npow. destruct (Req_EM_T (1 / p) 0); [contradiction|]. destruct (Rlt_dec 0 (1 / p)) as [L|]; auto.
      exfalso. assert (1 / p < 0) by (unfold Rdiv; rewrite Rmult_1_l; now apply Rinv_lt_0_compat). lra.
    + rewrite npow_zero_pos by auto. apply npow_zero_pos. unfold Rdiv; rewrite Rmult_1_l; now apply Rinv_0_lt_compat.
  - rewrite npow_pos by auto. rewrite npow_pos by apply Rpower_gt0. rewrite Rpower_root by auto. split; auto. intros _. left. lra.
Qed.

(* ---- blocks ---- *)
Lemma chunks_concat {A} s : forall (ls : list (list A)), (forall l, In l ls -> length l = s) -> chunks (length ls) s (concat ls) = ls.
Proof.
  unfold chunks. induction ls as [|l ls IH]; intros H; [reflexivity|]. cbn [length seq map concat]. f_equal.
  - cbn [Nat.mul skipn]. rewrite firstn_app, firstn_all2 by (rewrite H by (left; auto); lia).
    replace (s - length l)%nat with 0%nat by (rewrite H by (left; auto); lia). cbn. apply app_nil_r.
  - rewrite <- seq_shift, map_map. etransitivity; [|apply IH; intros; apply H; right; auto]. apply map_ext. intros a. f_equal.
    rewrite skipn_app. rewrite skipn_all2 by (rewrite H by (left; auto); nia). cbn [app]. f_equal. rewrite H by (left; auto). nia.
Qed.
Lemma concat_length_uniform {A} s (ls : list (list A)) : (forall l, In l ls -> length l = s) -> length (concat ls) = (length ls * s)%nat.
Proof. induction ls as [|l ls IH]; intros H; [reflexivity|]. cbn. rewrite app_length, IH, H by auto using in_eq, in_cons. lia. Qed.
Lemma nth_concat_uniform {A} (d : A) s : forall ls a i, (forall l, In l ls -> length l = s) -> (a < length ls)%nat -> (i < s)%nat ->
  nth (a * s + i) (concat ls) d = nth i (nth a ls []) d.
Proof.
  induction ls as [|l ls IH]; intros a i H Ha Hi; [cbn in Ha; lia|]. cbn [concat]. assert (L : length l = s) by (apply H; left; auto).
  destruct a as [|a].
  - cbn [Nat.mul Nat.add nth]. apply app_nth1. lia.
  - rewrite app_nth2 by (rewrite L; nia). rewrite L. replace (S a * s + i - s)%nat with (a * s + i)%nat by nia. cbn [nth]. apply IH; auto using in_cons. cbn in Ha; lia.
Qed.
Lemma nconcat_NV ls : ls <> [] -> nconcat (map NV ls) = Ok (NV (concat ls)).
Proof.
  induction ls as [|l ls IH]; [congruence|]. intros _. destruct ls as [|l' ls]; [cbn; now rewrite app_nil_r|].
  change (nconcat (map NV (l :: l' :: ls))) with (do b <- nconcat (map NV (l' :: ls)); nappend (NV l) b). rewrite IH by discriminate. reflexivity.
Qed.
Lemma nconcat_NM k ls : ls <> [] -> (forall m, In m ls -> m <> [] /\ length (hd [] m) = k) -> nconcat (map NM ls) = Ok (NM (concat ls)).
Proof.
  induction ls as [|l ls IH]; [congruence|]. intros _ H. destruct ls as [|l' ls]; [cbn; now rewrite app_nil_r|].
  change (nconcat (map NM (l :: l' :: ls))) with (do b <- nconcat (map NM (l' :: ls)); nappend (NM l) b). rewrite IH by (try discriminate; auto using in_cons). cbn [bind nappend].
  destruct (H l (or_introl eq_refl)) as [_ E1]. destruct (H l' (or_intror (or_introl eq_refl))) as [E2 E3].
  replace (length (hd [] (concat (l' :: ls)))) with k; [rewrite E1, Nat.eqb_refl; reflexivity|]. destruct l' as [|r l']; [congruence|]. symmetry. exact E3.
Qed.

(* the blocks of an array of blocks, one block for each p *)
Definition blockarr (Q : arr) (f : R -> nat -> nat -> fnum) (orders : vec) : narr :=
  match Q with
  | V v => NV (concat (map (fun p => map (fun i => f p i 0%nat) (seq 0 (length v))) orders))
  | M m => NM (concat (map (fun p => map (fun i => map (f p i) (seq 0 (ncols m))) (seq 0 (nrows m))) orders))
  end.
Definition oneblock (Q : arr) (g : nat -> nat -> fnum) : narr :=
  match Q with
  | V v => NV (map (fun i => g i 0%nat) (seq 0 (length v)))
  | M m => NM (map (fun i => map (g i) (seq 0 (ncols m))) (seq 0 (nrows m)))
  end.
Lemma seq_nonempty n : (0 < n)%nat -> seq 0 n <> []. Proof. destruct n; [lia|discriminate]. Qed.
Lemma nconcat_blocks Q f orders : proper Q -> orders <> [] -> nconcat (map (fun p => oneblock Q (f p)) orders) = Ok (blockarr Q f orders).
Proof.
  intros HQ Ho. destruct Q as [v|m]; cbn [oneblock blockarr].
  - rewrite <- (map_map (fun p => map (fun i => f p i 0%nat) (seq 0 (length v))) NV). apply nconcat_NV. destruct orders; [congruence|discriminate].
  - destruct HQ as (n & k & Hn & HM). rewrite <- (map_map (fun p => map (fun i => map (f p i) (seq 0 (ncols m))) (seq 0 (nrows m))) NM).
    apply (nconcat_NM (ncols m)). { destruct orders; [congruence|discriminate]. }
    intros b Hb. apply in_map_iff in Hb. destruct Hb as (p & <- & _). unfold nrows. rewrite (is_mat_len n k m HM). destruct n as [|n]; [lia|]. cbn [seq map hd].
    split; [discriminate|]. rewrite map_length, seq_length. reflexivity.
Qed.
Lemma nsplit_blocks Q f orders : proper Q -> orders <> [] -> nsplit (length orders) (blockarr Q f orders) = Ok (map (fun p => oneblock Q (f p)) orders).
Proof.
  intros HQ Ho. unfold nsplit. destruct (Nat.eqb_spec (length orders) 0) as [E|N]; [destruct orders; [congruence|discriminate]|].
  assert (R : nrows_n (blockarr Q f orders) = (length orders * arows Q)%nat).
  { destruct Q as [v|m]; cbn [blockarr nrows_n arows].
    - rewrite (concat_length_uniform (length v)); [now rewrite map_length|]. intros l Hl. apply in_map_iff in Hl. destruct Hl as (p & <- & _). now rewrite map_length, seq_length.
    - rewrite (concat_length_uniform (nrows m)); [now rewrite map_length|]. intros l Hl. apply in_map_iff in Hl. destruct Hl as (p & <- & _). now rewrite map_length, seq_length. }
  rewrite R. rewrite (Nat.mul_comm (length orders)). rewrite Nat.mod_mul by auto. cbn [Nat.eqb negb]. rewrite Nat.div_mul by auto. f_equal.
  destruct Q as [v|m]; cbn [blockarr oneblock arows].
  - rewrite <- (map_map (fun p => map (fun i => f p i 0%nat) (seq 0 (length v))) NV). f_equal.
    rewrite <- (map_length (fun p => map (fun i => f p i 0%nat) (seq 0 (length v))) orders). apply chunks_concat.
    intros l Hl. apply in_map_iff in Hl. destruct Hl as (p & <- & _). now rewrite map_length, seq_length.
  - rewrite <- (map_map (fun p => map (fun i => map (f p i) (seq 0 (ncols m))) (seq 0 (nrows m))) NM). f_equal.
    rewrite <- (map_length (fun p => map (fun i => map (f p i) (seq 0 (ncols m))) (seq 0 (nrows m))) orders). apply chunks_concat.
    intros l Hl. apply in_map_iff in Hl. destruct Hl as (p & <- & _). now rewrite map_length, seq_length.
Qed.
Lemma blockarr_get Q f orders a i j : (a < length orders)%nat -> (i < arows Q)%nat -> (j < acols Q)%nat ->
  nget (blockarr Q f orders) (a * arows Q + i) j = f (nth a orders 0) i j.
Proof.
  intros Ha Hi Hj. destruct Q as [v|m]; cbn [blockarr nget arows acols] in *.
  - assert (j = 0)%nat by lia. subst. rewrite (nth_concat_uniform NaN (length v)); [|intros l Hl; apply in_map_iff in Hl; destruct Hl as (p & <- & _); now rewrite map_length, seq_length|now rewrite map_length|auto].
    rewrite (nth_map_in _ orders a [] 0) by auto. rewrite (nth_map_in _ (seq 0 (length v)) i NaN 0%nat) by now rewrite seq_length. now rewrite seq_nth.
  - rewrite (nth_concat_uniform [] (nrows m)); [|intros l Hl; apply in_map_iff in Hl; destruct Hl as (p & <- & _); now rewrite map_length, seq_length|now rewrite map_length|auto].
    rewrite (nth_map_in _ orders a [] 0) by auto. rewrite (nth_map_in _ (seq 0 (nrows m)) i [] 0%nat) by now rewrite seq_length. rewrite seq_nth by auto. cbn [Nat.add].
    rewrite (nth_map_in _ (seq 0 (ncols m)) j NaN 0%nat) by now rewrite seq_length. now rewrite seq_nth.
Qed.
Lemma seq_tab {A} (d : A) l : map (fun i => nth i l d) (seq 0 (length l)) = l.
Proof.
  apply (nth_ext _ _ d d); rewrite map_length, seq_length; auto. intros i Hi. rewrite (nth_map_in _ (seq 0 (length l)) i d 0%nat) by now rewrite seq_length. now rewrite seq_nth.
Qed.
Lemma mat_tab n k (m : mat) : is_mat n k m -> (0 < n)%nat -> map (fun i => map (fun j => mget m i j) (seq 0 (ncols m))) (seq 0 (nrows m)) = m.
Proof.
  intros HM Hn. rewrite (ncols_is_mat n k m HM Hn). unfold nrows. rewrite <- (seq_tab [] m) at 2. apply map_ext_in. intros i Hi. apply in_seq in Hi.
  assert (L : length (nth i m []) = k) by (apply (is_mat_row n k); auto; rewrite <- (is_mat_len n k m HM); lia). rewrite <- L. apply (seq_tab 0).
Qed.
(* an array, elementwise *)
Lemma nmap_block Q g : proper Q -> nmap g (finite Q) = oneblock Q (fun i j => g (F (aget Q i j))).
Proof.
  intros HQ. destruct Q as [v|m]; cbn [finite nmap oneblock aget].
  - f_equal. rewrite map_map. rewrite <- (seq_tab 0 v) at 1. rewrite map_map. reflexivity.
  - destruct HQ as (n & k & Hn & HM). f_equal. rewrite <- (mat_tab n k m HM Hn) at 1. rewrite !map_map. apply map_ext. intros i. rewrite !map_map. reflexivity.
Qed.
Lemma finite_block Q : proper Q -> finite Q = oneblock Q (fun i j => F (aget Q i j)).
Proof.
  intros HQ. rewrite <- (nmap_block Q (fun x => x) HQ). destruct Q as [v|m]; cbn; f_equal; [now rewrite map_id|]. rewrite map_map. apply map_ext. intros. now rewrite map_id.
Qed.
Lemma nmap_oneblock Q g h : nmap h (oneblock Q g) = oneblock Q (fun i j => h (g i j)).
Proof. destruct Q as [v|m]; cbn; f_equal; rewrite !map_map; [reflexivity|]. apply map_ext. intros. now rewrite map_map. Qed.
Lemma map2_map {A B C D} (h : B -> C -> D) (f : A -> B) (g : A -> C) l : map2 h (map f l) (map g l) = map (fun a => h (f a) (g a)) l.
Proof. induction l; cbn; congruence. Qed.
Lemma nmap2_oneblock Q g g' h : proper Q -> nmap2 h (oneblock Q g) (oneblock Q g') = Ok (oneblock Q (fun i j => h (g i j) (g' i j))).
Proof.
  intros HQ. destruct Q as [v|m]; cbn [oneblock nmap2].
  - rewrite !map_length, Nat.eqb_refl. now rewrite map2_map.
  - destruct HQ as (n & k & Hn & HM). rewrite !map_length, Nat.eqb_refl. unfold nrows. rewrite (is_mat_len n k m HM). destruct n as [|n]; [lia|].
    cbn [seq map hd]. rewrite !map_length, Nat.eqb_refl. cbn [andb]. f_equal. f_equal. cbn [map2]. rewrite !map2_map. f_equal. apply map_ext. intros. apply map2_map.
Qed.
Lemma same_proper Q D : same_shape Q D -> proper Q /\ proper D /\ arows D = arows Q /\ acols D = acols Q /\ forall g, oneblock D g = oneblock Q g.
Proof.
  destruct Q as [q|q], D as [d|d]; cbn; try contradiction.
  - intros [H1 H2]. rewrite H2. repeat (split; auto).
  - intros (n & k & Hn & HQ & HD). assert (E1 : nrows d = nrows q) by (unfold nrows; rewrite (is_mat_len n k q HQ), (is_mat_len n k d HD); reflexivity).
    assert (E2 : ncols d = ncols q) by (rewrite (ncols_is_mat n k q HQ Hn), (ncols_is_mat n k d HD Hn); reflexivity).
    split; [exists n, k; auto|]. split; [exists n, k; auto|]. split; auto. split; auto. intros g. now rewrite E1, E2.
Qed.

(* ---- lift, lift_ddts ---- *)
Lemma poly_lift_ok orders Q : proper Q -> orders <> [] -> poly_lift orders Q = Ok (blockarr Q (fun p i j => npow (F (aget Q i j)) p) orders).
Proof.
  intros HQ Ho. unfold poly_lift. rewrite <- (nconcat_blocks Q (fun p i j => npow (F (aget Q i j)) p) orders HQ Ho). f_equal. apply map_ext. intros p. now apply nmap_block.
Qed.
Lemma poly_lift_ddts_ok orders Q D : same_shape Q D -> orders <> [] ->
  poly_lift_ddts orders Q D = Ok (blockarr Q (fun p i j => nmult (nmult (F p) (npow (F (aget Q i j)) (p - 1))) (F (aget D i j))) orders).
Proof.
  intros HS Ho. destruct (same_proper Q D HS) as (HQ & HD & E1 & E2 & EB). unfold poly_lift_ddts.
  rewrite (AffProofs.mapM_ok _ (fun p => oneblock Q (fun i j => nmult (nmult (F p) (npow (F (aget Q i j)) (p - 1))) (F (aget D i j))))).
  - cbn [bind]. apply nconcat_blocks; auto.
  - intros p _. rewrite (nmap_block Q) by auto. rewrite (finite_block D) by auto. rewrite EB. apply nmap2_oneblock; auto.
Qed.
Lemma oneblock_eq Q g g' : (forall i j, (i < arows Q)%nat -> (j < acols Q)%nat -> g i j = g' i j) <-> oneblock Q g = oneblock Q g'.
Proof.
  destruct Q as [v|m]; cbn [oneblock arows acols]; split.
  - intros H. f_equal. apply map_ext_in. intros i Hi. apply in_seq in Hi. apply H; lia.
  - intros [= H] i j Hi Hj. assert (j = 0)%nat by lia. subst. apply (f_equal (fun l => nth i l NaN)) in H.
    rewrite !(nth_map_in _ (seq 0 (length v)) i NaN 0%nat) in H by now rewrite seq_length. now rewrite seq_nth in H.
  - intros H. f_equal. apply map_ext_in. intros i Hi. apply in_seq in Hi. apply map_ext_in. intros j Hj. apply in_seq in Hj. apply H; lia.
  - intros [= H] i j Hi Hj. apply (f_equal (fun l => nth i l [])) in H.
    rewrite !(nth_map_in _ (seq 0 (nrows m)) i [] 0%nat) in H by now rewrite seq_length. rewrite seq_nth in H by auto. cbn [Nat.add] in H.
    apply (f_equal (fun l => nth j l NaN)) in H. rewrite !(nth_map_in _ (seq 0 (ncols m)) j NaN 0%nat) in H by now rewrite seq_length. now rewrite seq_nth in H.
Qed.
Lemma in_entries Q x : proper Q -> (In x (entries Q) <-> exists i j, (i < arows Q)%nat /\ (j < acols Q)%nat /\ aget Q i j = x).
Proof.
  intros HQ. destruct Q as [v|m]; cbn [entries arows acols aget].
  - split.
    + intros H. apply (In_nth _ _ 0) in H. destruct H as (i & Hi & E). exists i, 0%nat. auto.
    + intros (i & j & Hi & _ & <-). apply nth_In; auto.
  - destruct HQ as (n & k & Hn & HM). rewrite (ncols_is_mat n k m HM Hn). unfold nrows. split.
    + intros H. apply in_concat in H. destruct H as (row & Hr & Hx). apply (In_nth _ _ []) in Hr. destruct Hr as (i & Hi & <-).
      apply (In_nth _ _ 0) in Hx. destruct Hx as (j & Hj & E). exists i, j. split; auto. split; auto.
      rewrite <- (is_mat_row n k m i HM); auto. rewrite <- (is_mat_len n k m HM). auto.
    + intros (i & j & Hi & Hj & <-). apply in_concat. exists (nth i m []). split; [apply nth_In; auto|]. unfold mget. apply nth_In.
      rewrite (is_mat_row n k m i HM); auto. rewrite <- (is_mat_len n k m HM). auto.
Qed.

(* ---- unlift (lift q) ---- *)
Lemma index1_some orders i : index1 orders = Some i -> nth_error orders i = Some 1.
Proof.
  revert i. induction orders as [|p l IH]; intros i; cbn; [discriminate|]. destruct (Req_EM_T p 1) as [->|]; [intros [= <-]; reflexivity|].
  destruct (index1 l) as [j|]; [|discriminate]. intros [= <-]. cbn. auto.
Qed.
Lemma index1_none orders : index1 orders = None <-> ~ In 1 orders.
Proof.
  induction orders as [|p l IH]; cbn; [tauto|]. destruct (Req_EM_T p 1) as [->|N]; [split; [discriminate|tauto]|].
  destruct (index1 l) as [j|]; split; intros H; try discriminate; try tauto. exfalso. destruct IH as [_ IH]. specialize (IH ltac:(tauto)). discriminate.
Qed.
Lemma first_root_ok Q g : forall orders, (forall p, first_nonzero orders p -> first_root (map (fun p => oneblock Q (g p)) orders) orders = Ok (oneblock Q (fun i j => npow (g p i j) (1 / p)))) /\
  ((forall p, In p orders -> p = 0) -> first_root (map (fun p => oneblock Q (g p)) orders) orders = Err ZeroDivisionError).
Proof.
  induction orders as [|p l [IH1 IH2]]; split.
  - intros p (l1 & l2 & E & _). destruct l1; discriminate.
  - reflexivity.
  - intros q (l1 & l2 & E & Nq & Hz). cbn [map first_root]. destruct (Req_EM_T p 0) as [->|N].
    + apply IH1. destruct l1 as [|a l1]; [injection E as E1 E2; congruence|]. injection E as E1 E. exists l1, l2. split; auto. split; auto. intros; apply Hz; right; auto.
    + destruct l1 as [|a l1]; injection E as E1 E; subst p; [now rewrite nmap_oneblock|]. exfalso. apply N. apply Hz. left; auto.
  - intros H. cbn [map first_root]. destruct (Req_EM_T p 0) as [_|N]; [|exfalso; apply N, H; left; auto]. apply IH2. intros; apply H; right; auto.
Qed.
Lemma first_nonzero_dec orders : (exists p, first_nonzero orders p) \/ (forall p, In p orders -> p = 0).
Proof.
  induction orders as [|p l IH]; [right; intros p []|]. destruct (Req_EM_T p 0) as [->|N].
  - destruct IH as [(q & l1 & l2 & -> & Nq & H)|H]; [left; exists q, (0 :: l1), l2; split; auto; split; auto; intros x [<-|Hx]; auto|right; intros x [<-|Hx]; auto].
  - left. exists p, [], l. split; auto. split; auto. intros x [].
Qed.
Lemma first_nonzero_unique orders p q : first_nonzero orders p -> first_nonzero orders q -> p = q.
Proof.
  intros (l & l' & -> & Np & Hp) (m & m' & E & Nq & Hq). revert m E Hq. induction l as [|a l IH]; intros m E Hq.
  - destruct m as [|b m]; injection E as E1 E2; auto. exfalso. apply Np. rewrite E1. apply Hq. left; auto.
  - destruct m as [|b m]; injection E as E1 E2.
    + exfalso. apply Nq. rewrite <- E1. apply Hp. left; auto.
    + apply (IH ltac:(intros; apply Hp; right; auto) m E2). intros; apply Hq; right; auto.
Qed.
Lemma poly_unlift_lift orders Q L : proper Q -> orders <> [] -> poly_lift orders Q = Ok L ->
  (poly_unlift orders L = Ok (finite Q) <-> (In 1 orders \/ exists p, first_nonzero orders p /\ forall x, In x (entries Q) -> recoverable p x)).
Proof.
  intros HQ Ho E. rewrite poly_lift_ok in E by auto. injection E as <-. unfold poly_unlift. rewrite nsplit_blocks by auto. cbn [bind].
  destruct (index1 orders) as [i|] eqn:EI.
  - apply index1_some in EI. split; [intros _; left; eapply nth_error_In; eauto|]. intros _.
    rewrite (map_nth_error _ _ _ EI). f_equal. rewrite finite_block by auto. apply oneblock_eq. intros. apply npow_1.
  - apply index1_none in EI. destruct (first_nonzero_dec orders) as [[p Hp]|HZ].
    + rewrite (proj1 (first_root_ok Q (fun p i j => npow (F (aget Q i j)) p) orders) p Hp). rewrite (finite_block Q) by auto.
      assert (Np : p <> 0) by (destruct Hp as (? & ? & _ & N & _); auto).
      assert (N1 : p <> 1) by (intros ->; destruct Hp as (l & l' & -> & _); apply EI, in_or_app; right; left; auto).
      split.
      * intros H. assert (H' : oneblock Q (fun i j => npow (npow (F (aget Q i j)) p) (1 / p)) = oneblock Q (fun i j => F (aget Q i j))) by congruence. clear H.
        pose proof (proj2 (oneblock_eq _ _ _) H') as H''. clear H'. rename H'' into H'. right. exists p. split; auto. intros x Hx. apply in_entries in Hx; auto. destruct Hx as (i & j & Hi & Hj & <-). apply root_power; auto.
      * intros [H|(q & Hq & HR)]; [contradiction|]. rewrite (first_nonzero_unique orders q p Hq Hp) in HR. f_equal. apply oneblock_eq. intros i j Hi Hj. apply root_power; auto.
        apply HR. apply in_entries; auto. exists i, j. auto.
    + rewrite (proj2 (first_root_ok Q (fun p i j => npow (F (aget Q i j)) p) orders) HZ). split; [discriminate|].
      intros [H|(p & (l & l' & -> & N & _) & _)]; [contradiction|]. exfalso. apply N, HZ, in_or_app. right; left; auto.
Qed.
Lemma poly_unlift_zero orders Q L : proper Q -> orders <> [] -> (forall p, In p orders -> p = 0) -> poly_lift orders Q = Ok L -> poly_unlift orders L = Err ZeroDivisionError.
Proof.
  intros HQ Ho HZ E. rewrite poly_lift_ok in E by auto. injection E as <-. unfold poly_unlift. rewrite nsplit_blocks by auto. cbn [bind].
  destruct (index1 orders) as [i|] eqn:EI; [apply index1_some, nth_error_In, HZ in EI; lra|]. apply (first_root_ok Q (fun p i j => npow (F (aget Q i j)) p) orders). auto.
Qed.
Lemma poly_lift_defined orders Q : proper Q -> orders <> [] -> exists L, poly_lift orders Q = Ok L /\ nrows_n L = (length orders * arows Q)%nat.
Proof.
  intros HQ Ho. exists (blockarr Q (fun p i j => npow (F (aget Q i j)) p) orders). split; [now apply poly_lift_ok|].
  destruct Q as [v|m]; cbn [blockarr nrows_n arows].
  - rewrite (concat_length_uniform (length v)); [now rewrite map_length|]. intros l Hl. apply in_map_iff in Hl. destruct Hl as (p & <- & _). now rewrite map_length, seq_length.
  - rewrite (concat_length_uniform (nrows m)); [now rewrite map_length|]. intros l Hl. apply in_map_iff in Hl. destruct Hl as (p & <- & _). now rewrite map_length, seq_length.
Qed.
Lemma poly_lift_entry orders Q L a i j : proper Q -> poly_lift orders Q = Ok L -> (a < length orders)%nat -> (i < arows Q)%nat -> (j < acols Q)%nat ->
  nget L (a * arows Q + i) j = npow (F (aget Q i j)) (nth a orders 0).
Proof.
  intros HQ E Ha Hi Hj. assert (Ho : orders <> []) by (destruct orders; [cbn in Ha; lia|discriminate]). rewrite poly_lift_ok in E by auto. injection E as <-.
  rewrite blockarr_get by auto. reflexivity.
Qed.

(* TupleProofs.v -- proofs about ckron, compress_entries and expand_entries. *)
From Verif Require Export TupleLemmas.
#[local] Open Scope nat_scope.

(* ---------------------------------------------------------------- ckron *)
Lemma flat_map_combine_seq {A B} (d : A) (f : nat -> A -> list B) s (l : list A) :
  flat_map (fun p => let '(i, x) := p in f i x) (combine (seq s (length l)) l)
  = flat_map (fun i => f i (nth (i - s) l d)) (seq s (length l)).
Proof. revert s; induction l as [|a l IH]; intros s; simpl; auto.
  rewrite Nat.sub_diag. f_equal. rewrite IH. apply flat_map_ext_in. intros i Hi.
  apply in_seq in Hi. replace (i - s) with (S (i - S s)) by lia. reflexivity. Qed.

Lemma ckron2_mono q : ckron2 Rmult q = map (mono q) (desc 2 (length q)).
Proof. unfold ckron2. rewrite (flat_map_combine_seq 0%R (fun i si => map (Rmult si) (firstn (i + 1) q))).
  change (desc 2 (length q)) with (flat_map (fun i => map (cons i) (desc 1 (S i))) (seq 0 (length q))).
  rewrite map_flat_map. apply flat_map_ext_in. intros i Hi. apply in_seq in Hi.
  rewrite desc_1, !map_map, Nat.sub_0_r.
  assert (firstn (i + 1) q = map (vget q) (seq 0 (S i))) as ->.
  { rewrite Nat.add_1_r. rewrite (vec_tab (length q) q eq_refl) at 1.
    rewrite firstn_map. f_equal. replace (length q) with (S i + (length q - S i)) by lia.
    rewrite seq_app, firstn_app, seq_length, Nat.sub_diag, firstn_O, app_nil_r.
    rewrite <- (seq_length (S i) 0) at 1. apply firstn_all. }
  rewrite map_map. apply map_ext. intros j. unfold mono, lprod, vget. simpl. ring. Qed.

Lemma ckron_step p (q st : list R) (lens : nat -> nat) :
  st = map (mono q) (desc p (length q)) ->
  (forall i, lens i = length (desc p (S i))) ->
  flat_map (fun x => let '(i, si) := x in map (Rmult si) (firstn (lens i) st))
           (combine (seq 0 (length q)) q)
  = map (mono q) (desc (S p) (length q)).
Proof. intros Hst Hl. rewrite (flat_map_combine_seq 0%R (fun i si => map (Rmult si) (firstn (lens i) st))).
  change (desc (S p) (length q)) with (flat_map (fun i => map (cons i) (desc p (S i))) (seq 0 (length q))).
  rewrite map_flat_map. apply flat_map_ext_in. intros i Hi. apply in_seq in Hi.
  rewrite Nat.sub_0_r, Hst, Hl, firstn_map, desc_prefix by lia.
  rewrite !map_map. reflexivity. Qed.

Lemma ckron3_mono q : ckron3 Rmult q = map (mono q) (desc 3 (length q)).
Proof. unfold ckron3. apply ckron_step; [apply ckron2_mono|]. intros; apply binom2_desc. Qed.
Lemma ckron4_mono q : ckron4 Rmult q = map (mono q) (desc 4 (length q)).
Proof. unfold ckron4. apply ckron_step; [apply ckron3_mono|]. intros; apply binom3_desc. Qed.

Lemma fill_rows_exact d z rows : length rows = d -> fill_rows d z rows = Ok rows.
Proof. revert d; induction rows as [|t rows IH]; intros d <-; simpl; auto.
  rewrite IH; auto. Qed.

Lemma ckron_indices2_ok r : ckron_indices2 r = Ok (desc 2 r).
Proof. unfold ckron_indices2. rewrite loop2_desc, opdim2_desc. apply fill_rows_exact; auto. Qed.
Lemma ckron_indices3_ok r : ckron_indices3 r = Ok (desc 3 r).
Proof. unfold ckron_indices3. rewrite loop3_desc, opdim3_desc. apply fill_rows_exact; auto. Qed.
Lemma ckron_indices4_ok r : ckron_indices4 r = Ok (desc 4 r).
Proof. unfold ckron_indices4. rewrite loop4_desc, opdim4_desc. apply fill_rows_exact; auto. Qed.

Lemma maskprod_desc p q : maskprod q (desc p (length q)) = Ok (map (mono q) (desc p (length q))).
Proof. unfold maskprod. replace (forallb _ _) with true; auto.
  symmetry. apply forallb_forall. intros t Ht. apply in_desc in Ht. destruct Ht as [_ [Hn Hh]].
  apply forallb_forall. intros i Hi. apply Nat.ltb_lt.
  assert (H := noninc_all_lt _ _ Hn Hh). rewrite Forall_forall in H. auto. Qed.

(* columnwise: ckron of a matrix of states (rows multiply entrywise) *)
Lemma ckron_hom {A B} (mulA : A -> A -> A) (mulB : B -> B -> B) (f : A -> B) (P : A -> Prop) :
  (forall x y, P x -> P y -> f (mulA x y) = mulB (f x) (f y)) ->
  (forall x y, P x -> P y -> P (mulA x y)) ->
  forall st lens, Forall P st -> forall k s, Forall P k ->
  map f (flat_map (fun p => let '(i, si) := p in map (mulA si) (firstn (lens i) k)) (combine (seq s (length st)) st))
  = flat_map (fun p => let '(i, si) := p in map (mulB si) (firstn (lens i) (map f k)))
      (combine (seq s (length (map f st))) (map f st)).
Proof. intros Hf HP st lens Hst k s Hk. rewrite map_length. revert s.
  induction Hst as [|x st Hx Hst IH]; intros s; simpl; auto.
  rewrite map_app, IH. f_equal. rewrite map_map, firstn_map, map_map. apply map_ext_in.
  intros y Hy. apply Hf; auto. rewrite Forall_forall in Hk. apply Hk.
  rewrite <- (firstn_skipn (lens s) k). apply in_app_iff; auto. Qed.

Lemma ckron_closed {A} (mulA : A -> A -> A) (P : A -> Prop) :
  (forall x y, P x -> P y -> P (mulA x y)) ->
  forall st lens, Forall P st -> forall k s, Forall P k ->
  Forall P (flat_map (fun p => let '(i, si) := p in map (mulA si) (firstn (lens i) k)) (combine (seq s (length st)) st)).
Proof. intros HP st lens Hst k s Hk. revert s.
  induction Hst as [|x st Hx Hst IH]; intros s; simpl; auto.
  apply Forall_app. split; auto. rewrite Forall_forall in *. intros y Hy.
  apply in_map_iff in Hy. destruct Hy as [z [<- Hz]]. apply HP; auto. apply Hk.
  rewrite <- (firstn_skipn (lens s) k). apply in_app_iff; auto. Qed.

Section Columns.
  Variables (k j : nat).
  Hypothesis Hj : j < k.
  Let P (row : vec) := length row = k.
  Lemma Pmul x y : P x -> P y -> P (vmul x y).
  Proof. clear Hj j. unfold P; intros; unfold vmul; rewrite map2_length; lia. Qed.
  Lemma fmul x y : P x -> P y -> vget (vmul x y) j = (vget x j * vget y j)%R.
  Proof. unfold P; intros. apply (vget_vmul k); auto. Qed.

  Lemma ckron2_closed Q : Forall P Q -> Forall P (ckron2 vmul Q).
  Proof. intros H. unfold ckron2. apply (ckron_closed vmul P Pmul Q (fun i => i + 1) H Q 0 H). Qed.
  Lemma ckron3_closed Q : Forall P Q -> Forall P (ckron3 vmul Q).
  Proof. intros H. unfold ckron3. apply (ckron_closed vmul P Pmul Q (fun i => binom2 (i+2)) H _ 0).
    apply ckron2_closed; auto. Qed.
  Lemma ckron4_closed Q : Forall P Q -> Forall P (ckron4 vmul Q).
  Proof. intros H. unfold ckron4. apply (ckron_closed vmul P Pmul Q (fun i => binom3 (i+3)) H _ 0).
    apply ckron3_closed; auto. Qed.

  Lemma ckron2_col Q : Forall P Q ->
    map (fun row => vget row j) (ckron2 vmul Q) = ckron2 Rmult (map (fun row => vget row j) Q).
  Proof. intros H. unfold ckron2.
    apply (ckron_hom vmul Rmult (fun row => vget row j) P fmul Pmul Q (fun i => i + 1) H Q 0 H). Qed.
  Lemma ckron3_col Q : Forall P Q ->
    map (fun row => vget row j) (ckron3 vmul Q) = ckron3 Rmult (map (fun row => vget row j) Q).
  Proof. intros H. unfold ckron3. rewrite <- ckron2_col by auto.
    apply (ckron_hom vmul Rmult (fun row => vget row j) P fmul Pmul Q (fun i => binom2 (i + 2)) H _ 0).
    apply ckron2_closed; auto. Qed.
  Lemma ckron4_col Q : Forall P Q ->
    map (fun row => vget row j) (ckron4 vmul Q) = ckron4 Rmult (map (fun row => vget row j) Q).
  Proof. intros H. unfold ckron4. rewrite <- ckron3_col by auto.
    apply (ckron_hom vmul Rmult (fun row => vget row j) P fmul Pmul Q (fun i => binom3 (i + 3)) H _ 0).
    apply ckron3_closed; auto. Qed.
End Columns.

(* ---------------------------------------------------------------- Kronecker powers *)
Lemma kronv_flat_map u v : kronv u v = flat_map (fun a => vscale a v) u.
Proof. unfold kronv. symmetry. apply flat_map_concat_map. Qed.

Lemma kronv_mono q p : kronv q (map (mono q) (tuples p (length q))) = map (mono q) (tuples (S p) (length q)).
Proof. rewrite kronv_flat_map. rewrite (vec_tab (length q) q eq_refl) at 1.
  change (tuples (S p) (length q)) with (flat_map (fun i => map (cons i) (tuples p (length q))) (seq 0 (length q))).
  rewrite map_flat_map. rewrite !flat_map_concat_map, map_map. f_equal. apply map_ext. intros i.
  unfold vscale. rewrite !map_map. reflexivity. Qed.

Lemma vec_mono1 q : q = map (mono q) (tuples 1 (length q)).
Proof. rewrite (vec_tab (length q) q eq_refl) at 1. simpl.
  assert (forall l, map (vget q) l = map (mono q) (flat_map (fun i => [[i]]) l)) as H.
  { induction l as [|a l IH]; simpl; auto. rewrite IH. f_equal. unfold mono, lprod; simpl. ring. }
  apply H. Qed.

Lemma kron2_mono q : kronv q q = map (mono q) (tuples 2 (length q)).
Proof. rewrite (vec_mono1 q) at 2. apply kronv_mono. Qed.
Lemma kron3_mono q : kronv q (kronv q q) = map (mono q) (tuples 3 (length q)).
Proof. rewrite kron2_mono. apply kronv_mono. Qed.
Lemma kron4_mono q : kronv q (kronv q (kronv q q)) = map (mono q) (tuples 4 (length q)).
Proof. rewrite kron3_mono. apply kronv_mono. Qed.

Lemma dot_map {A} (f g : A -> R) l : dot (map f l) (map g l) = lsum (map (fun a => (f a * g a)%R) l).
Proof. induction l as [|a l IH]; simpl; auto. rewrite lsum_cons, IH. reflexivity. Qed.

Lemma vec_by_pos p r g : length g = r ^ p -> g = map (fun t => nth (pos r t) g 0%R) (tuples p r).
Proof. intros H. rewrite <- (map_map (pos r) (fun i => nth i g 0%R)), map_pos_tuples.
  apply vec_tab; auto. Qed.

Lemma dot_tuples p r g q : length g = r ^ p ->
  dot g (map (mono q) (tuples p r)) = lsum (map (fun t => (nth (pos r t) g 0 * mono q t)%R) (tuples p r)).
Proof. intros H. rewrite (vec_by_pos p r g H) at 1. apply dot_map. Qed.

(* ---------------------------------------------------------------- compress *)
Lemma perm_set_2 i j : perm_set [i; j] = if i =? j then [[i; j]] else [[i; j]; [j; i]].
Proof. unfold perm_set. simpl perms. simpl flat_map. destruct (Nat.eqb_spec i j) as [->|H].
  - cbn [nodup]. destruct (in_dec _ [j; j] [[j; j]]) as [K|K]; auto. exfalso; apply K; simpl; auto.
  - apply nodup_fixed_point. constructor; [|constructor; [simpl; auto|constructor]].
    simpl. intros [E|[]]. congruence. Qed.

Definition crow (p r : nat) (g : vec) : vec :=
  map (fun t => lsum (map (fun s => nth (pos r s) g 0%R) (perm_set t))) (desc p r).

Lemma lsum1 x : lsum [x] = x.  Proof. unfold lsum; simpl; ring. Qed.
Lemma lsum2 x y : lsum [x; y] = (x + y)%R.  Proof. unfold lsum; simpl; ring. Qed.

Lemma pos2 r i j : pos r [i; j] = i * r + j.
Proof. simpl. rewrite !Nat.mul_1_r, Nat.add_0_r; auto. Qed.
Lemma idx2_pos r t : length t = 2 -> idx2 r t = pos r t.
Proof. destruct t as [|i [|j [|]]]; simpl; try discriminate. intros; lia. Qed.
Lemma idx3_pos r t : length t = 3 -> idx3 r t = pos r t.
Proof. destruct t as [|i [|j [|k [|]]]]; simpl; try discriminate. intros; lia. Qed.
Lemma idx4_pos r t : length t = 4 -> idx4 r t = pos r t.
Proof. destruct t as [|i [|j [|k [|l [|]]]]]; simpl; try discriminate. intros; lia. Qed.

Lemma compress_row2_crow r g : compress_row2 r g = crow 2 r g.
Proof. unfold compress_row2, crow. rewrite loop2_desc. apply map_ext_in. intros t Ht.
  apply in_desc in Ht. destruct Ht as [Hl _]. destruct t as [|i [|j [|]]]; simpl in Hl; try discriminate.
  rewrite perm_set_2. destruct (Nat.eqb_spec i j) as [->|H]; cbn [map]; rewrite !pos2.
  - rewrite lsum1; auto.
  - rewrite lsum2; auto. Qed.

Lemma perm_set_len t s : In s (perm_set t) -> length s = length t.
Proof. intros H. apply in_perm_set in H. apply Permutation_length; auto. Qed.

Lemma compress_row3_crow r g : compress_row3 r g = crow 3 r g.
Proof. unfold compress_row3, crow. rewrite loop3_desc. apply map_ext_in. intros t Ht.
  apply in_desc in Ht. destruct Ht as [Hl _]. apply lsum_map_ext. intros s Hs.
  rewrite idx3_pos; auto. rewrite (perm_set_len t s); auto. Qed.
Lemma compress_row4_crow r g : compress_row4 r g = crow 4 r g.
Proof. unfold compress_row4, crow. rewrite loop4_desc. apply map_ext_in. intros t Ht.
  apply in_desc in Ht. destruct Ht as [Hl _]. apply lsum_map_ext. intros s Hs.
  rewrite idx4_pos; auto. rewrite (perm_set_len t s); auto. Qed.

Lemma crow_dot p r g q : length g = r ^ p ->
  dot (crow p r g) (map (mono q) (desc p r)) = dot g (map (mono q) (tuples p r)).
Proof. intros H. rewrite (dot_tuples p r g q H), lsum_tuples_grouped. unfold crow. rewrite dot_map.
  apply lsum_map_ext. intros t _. rewrite <- lsum_map_scal_r. apply lsum_map_ext.
  intros s Hs. apply in_perm_set in Hs. rewrite (mono_perm q s t Hs). reflexivity. Qed.

Lemma pow_le_inv a b p : 0 < p -> a ^ p <= b ^ p -> a <= b.
Proof. intros Hp H. destruct (Nat.le_gt_cases a b) as [K|K]; auto.
  assert (b ^ p < a ^ p) by (apply Nat.pow_lt_mono_l; lia). lia. Qed.

Lemma nearest_root_from_pow p r k : 0 < p -> r <= k -> nearest_root_from p (r ^ p) k = r.
Proof. intros Hp. induction k as [|k IH]; intros Hk; cbn [nearest_root_from]; [lia|].
  destruct (Nat.leb_spec ((2 * S k - 1) ^ p) (2 ^ p * r ^ p)) as [K|K].
  - rewrite <- Nat.pow_mul_l in K. apply pow_le_inv in K; auto. lia.
  - apply IH. destruct (Nat.eq_dec r (S k)) as [->|]; [|lia].
    exfalso. rewrite <- Nat.pow_mul_l in K.
    assert ((2 * S k - 1) ^ p <= (2 * S k) ^ p) by (apply Nat.pow_le_mono_l; lia). lia. Qed.

Lemma nearest_root_pow p r : 0 < p -> nearest_root p (r ^ p) = r.
Proof. intros Hp. apply nearest_root_from_pow; auto.
  assert (r <= r ^ p); [|lia]. destruct r as [|r]; [lia|].
  replace (S r) with (S r ^ 1) at 1 by apply Nat.pow_1_r. apply Nat.pow_le_mono_r; lia. Qed.

(* ---------------------------------------------------------------- writes *)
Lemma upd_length {A} p (x : A) l : length (upd p x l) = length l.
Proof. revert p; induction l as [|y l IH]; intros [|p]; simpl; auto. Qed.
Lemma nth_upd_eq {A} p (x d : A) l : p < length l -> nth p (upd p x l) d = x.
Proof. revert p; induction l as [|y l IH]; intros [|p]; simpl; intros; try lia; auto. apply IH; lia. Qed.
Lemma nth_upd_neq {A} p i (x d : A) l : i <> p -> nth i (upd p x l) d = nth i l d.
Proof. revert p i; induction l as [|y l IH]; intros [|p] [|i]; simpl; intros; try lia; auto. Qed.

Lemma writes_length ws l : length (writes ws l) = length l.
Proof. unfold writes. revert l; induction ws as [|w ws IH]; intros l; simpl; auto.
  rewrite IH, upd_length; auto. Qed.
Lemma writes_notin ws l i d : ~ In i (map fst ws) -> nth i (writes ws l) d = nth i l d.
Proof. unfold writes. revert l; induction ws as [|w ws IH]; intros l H; simpl in *; auto.
  rewrite IH by tauto. apply nth_upd_neq. intros E; subst; tauto. Qed.
Lemma writes_in ws l i x : NoDup (map fst ws) -> In (i, x) ws -> i < length l ->
  nth i (writes ws l) 0%R = x.
Proof. unfold writes. revert l; induction ws as [|w ws IH]; intros l Hnd Hin Hi; simpl in *; [tauto|].
  inversion Hnd as [|? ? Hw Hnd']; subst. destruct Hin as [->|Hin]; simpl.
  - fold (writes ws (upd i x l)). rewrite writes_notin by auto. apply nth_upd_eq; auto.
  - apply IH; auto. rewrite upd_length; auto. Qed.

Lemma writes_app a b l : writes (a ++ b) l = writes b (writes a l).
Proof. apply fold_left_app. Qed.

(* ---------------------------------------------------------------- expand *)
Definition ewrites (p r : nat) (gc : vec) : list (nat * R) :=
  flat_map (fun w => map (fun s => (pos r s, (nth (snd w) gc 0 / INR (length (perm_set (fst w))))%R))
                         (perm_set (fst w)))
           (combine (desc p r) (seq 0 (length (desc p r)))).

Lemma fold_left_nested {A B C} (f : C -> B -> C) (h : A -> list B) (l : list A) (c : C) :
  fold_left (fun c a => fold_left f (h a) c) l c = fold_left f (flat_map h l) c.
Proof. revert c; induction l as [|a l IH]; intros c; simpl; auto. rewrite fold_left_app. auto. Qed.

Lemma fold_left_ext_in {A B} (f g : A -> B -> A) l a :
  (forall a b, In b l -> f a b = g a b) -> fold_left f l a = fold_left g l a.
Proof. revert a; induction l as [|b l IH]; intros a H; simpl; auto.
  rewrite H by (simpl; auto). apply IH. intros; apply H; simpl; auto. Qed.

Lemma expand_gen p r g0 gc (idx : nat -> list nat -> nat) :
  (forall t, length t = p -> idx r t = pos r t) ->
  fold_left (fun g w => let '(t, fj) := w in
     let idxs := perm_set t in
     let fill := (nth fj gc 0 / INR (length idxs))%R in
     fold_left (fun g s => upd (idx r s) fill g) idxs g)
    (combine (desc p r) (seq 0 (length (desc p r)))) g0 = writes (ewrites p r gc) g0.
Proof. intros Hidx. unfold writes, ewrites. rewrite <- fold_left_nested. apply fold_left_ext_in.
  intros g [t fj] Hin. simpl. apply in_combine_l in Hin. apply in_desc in Hin. destruct Hin as [Hl _].
  assert (forall l g, (forall s, In s l -> length s = p) ->
     fold_left (fun g0 s => upd (idx r s) (nth fj gc 0 / INR (length (perm_set t)))%R g0) l g =
     fold_left (fun (g0 : list R) (w : nat * R) => upd (fst w) (snd w) g0)
       (map (fun s => (pos r s, (nth fj gc 0 / INR (length (perm_set t)))%R)) l) g) as H.
  { induction l as [|s l IH]; intros g1 Hs; simpl; auto. rewrite Hidx by (apply Hs; simpl; auto).
    apply IH. intros; apply Hs; simpl; auto. }
  apply H. intros s Hs. rewrite (perm_set_len t s); auto. Qed.

Lemma expand_row3_writes r g0 gc : expand_row3 r g0 gc = writes (ewrites 3 r gc) g0.
Proof. unfold expand_row3. rewrite loop3_desc. apply (expand_gen 3 r g0 gc idx3). intros; apply idx3_pos; auto. Qed.
Lemma expand_row4_writes r g0 gc : expand_row4 r g0 gc = writes (ewrites 4 r gc) g0.
Proof. unfold expand_row4. rewrite loop4_desc. apply (expand_gen 4 r g0 gc idx4). intros; apply idx4_pos; auto. Qed.
Lemma expand_row2_writes r g0 gc : expand_row2 r g0 gc = writes (ewrites 2 r gc) g0.
Proof. unfold expand_row2. rewrite loop2_desc.
  rewrite <- (expand_gen 2 r g0 gc idx2) by (intros; apply idx2_pos; auto).
  apply fold_left_ext_in. intros g [t fj] Hin. apply in_combine_l in Hin. apply in_desc in Hin.
  destruct Hin as [Hl _]. destruct t as [|i [|j [|]]]; simpl in Hl; try discriminate.
  rewrite perm_set_2. destruct (Nat.eqb_spec i j) as [->|H]; cbn [fold_left length idx2].
  - f_equal. simpl INR. field.
  - replace (INR 2) with 2%R by (simpl; ring). reflexivity. Qed.

Lemma NoDup_combine_fst {A B} (l : list A) (m : list B) : NoDup l -> NoDup (combine l m).
Proof. revert m; induction l as [|a l IH]; intros [|b m] H; simpl; constructor; inversion H; subst; auto.
  intros K. apply in_combine_l in K. auto. Qed.

Lemma in_combine_seq {A} (d : A) l t fj s : In (t, fj) (combine l (seq s (length l))) <->
  s <= fj < s + length l /\ nth (fj - s) l d = t.
Proof. revert s; induction l as [|a l IH]; intros s; simpl.
  - split; [tauto|lia].
  - rewrite IH. split.
    + intros [E|[H1 H2]]; [inversion E; subst; split; [lia|rewrite Nat.sub_diag; auto]|].
      split; [lia|]. replace (fj - s) with (S (fj - S s)) by lia. auto.
    + intros [H1 H2]. destruct (Nat.eq_dec fj s) as [->|Hn].
      * left. rewrite Nat.sub_diag in H2. congruence.
      * right. split; [lia|]. replace (fj - s) with (S (fj - S s)) in H2 by lia. auto. Qed.

Lemma ewrites_positions p r gc : Permutation (map fst (ewrites p r gc)) (seq 0 (r ^ p)).
Proof. rewrite <- map_pos_tuples. unfold ewrites. rewrite map_flat_map.
  rewrite (Permutation_map (pos r) (tuples_flat_perms p r)), map_flat_map.
  apply Permutation_refl'.
  assert (forall l s, flat_map (fun x : list nat * nat =>
     map fst (map (fun s0 => (pos r s0, (nth (snd x) gc 0 / INR (length (perm_set (fst x))))%R)) (perm_set (fst x))))
    (combine l (seq s (length l))) = flat_map (fun x => map (pos r) (perm_set x)) l) as H.
  { induction l as [|t l IH]; intros s; simpl; auto. rewrite IH, map_map. simpl. reflexivity. }
  apply H. Qed.

Lemma ewrites_NoDup p r gc : NoDup (map fst (ewrites p r gc)).
Proof. eapply Permutation_NoDup; [apply Permutation_sym, ewrites_positions|apply seq_NoDup]. Qed.

Lemma expand_entry p r gc g0 fj s : length g0 = r ^ p -> fj < length (desc p r) ->
  Permutation s (nth fj (desc p r) []) ->
  nth (pos r s) (writes (ewrites p r gc) g0) 0%R
  = (nth fj gc 0 / INR (length (perm_set (nth fj (desc p r) []))))%R.
Proof. intros Hg Hfj HP. set (t := nth fj (desc p r) []) in *.
  assert (In (pos r s, (nth fj gc 0 / INR (length (perm_set t)))%R) (ewrites p r gc)) as Hin.
  { unfold ewrites. apply in_flat_map. exists (t, fj). split.
    - apply (in_combine_seq []). split; [lia|]. rewrite Nat.sub_0_r. reflexivity.
    - apply in_map_iff. exists s. split; auto. apply in_perm_set; auto. }
  apply writes_in; auto using ewrites_NoDup. rewrite Hg.
  assert (In (pos r s) (seq 0 (r ^ p))) as Hs.
  { eapply Permutation_in; [apply (ewrites_positions p r gc)|]. apply in_map_iff. eexists; split; [|exact Hin]. auto. }
  apply in_seq in Hs. lia. Qed.

Lemma expand_indep_junk p r gc g0 g1 : length g0 = r ^ p -> length g1 = r ^ p ->
  writes (ewrites p r gc) g0 = writes (ewrites p r gc) g1.
Proof. intros H0 H1. apply (list_ext 0%R); [rewrite !writes_length; lia|].
  rewrite writes_length, H0. intros i Hi.
  assert (In i (map fst (ewrites p r gc))) as Hin.
  { eapply Permutation_in; [apply Permutation_sym, ewrites_positions|]. apply in_seq; lia. }
  apply in_map_iff in Hin. destruct Hin as [[i' x] [E Hin]]. simpl in E; subst i'.
  rewrite !(writes_in _ _ i x); auto using ewrites_NoDup; lia. Qed.

(* value of the expanded row at a tuple only depends on the tuple up to permutation *)
Lemma lsum_const {A} (c : R) (l : list A) : lsum (map (fun _ => c) l) = (INR (length l) * c)%R.
Proof. induction l as [|a l IH]; [unfold lsum; simpl; ring|].
  simpl map. rewrite lsum_cons, IH. simpl length. rewrite S_INR. ring. Qed.

Lemma crow_expand p r gc g0 : length g0 = r ^ p -> length gc = length (desc p r) ->
  crow p r (writes (ewrites p r gc) g0) = gc.
Proof. intros Hg Hc. apply (list_ext 0%R); unfold crow; rewrite map_length; auto.
  intros fj Hfj. rewrite (nth_map_in _ _ _ _ []) by auto.
  set (t := nth fj (desc p r) []).
  rewrite (lsum_map_ext _ (fun _ => (nth fj gc 0 / INR (length (perm_set t)))%R)).
  - rewrite lsum_const. field. apply not_0_INR. assert (H := perm_set_length_pos t). lia.
  - intros s Hs. apply in_perm_set in Hs. apply (expand_entry p r gc g0 fj s); auto. Qed.

Lemma expand_symmetric p r gc g0 s s' : length g0 = r ^ p -> In s (tuples p r) ->
  Permutation s' s ->
  nth (pos r s') (writes (ewrites p r gc) g0) 0%R = nth (pos r s) (writes (ewrites p r gc) g0) 0%R.
Proof. intros Hg Hs HP.
  assert (In s (flat_map perm_set (desc p r))) as H by (eapply Permutation_in; [apply tuples_flat_perms|auto]).
  apply in_flat_map in H. destruct H as [t [Ht Hst]]. apply in_perm_set in Hst.
  apply (In_nth _ _ []) in Ht. destruct Ht as [fj [Hfj <-]].
  rewrite !(expand_entry p r gc g0 fj); auto. rewrite HP; auto. Qed.

Lemma expand_row_dot p r gc g0 q : length g0 = r ^ p -> length gc = length (desc p r) ->
  dot (writes (ewrites p r gc) g0) (map (mono q) (tuples p r)) = dot gc (map (mono q) (desc p r)).
Proof. intros Hg Hc. rewrite <- (crow_expand p r gc g0 Hg Hc) at 2. symmetry. apply crow_dot.
  rewrite writes_length; auto. Qed.

(* symmetrization: expanding the compression averages over the distinct permutations *)
Lemma expand_crow_entry p r g g0 s : length g0 = r ^ p -> In s (tuples p r) ->
  nth (pos r s) (writes (ewrites p r (crow p r g)) g0) 0%R
  = (lsum (map (fun s' => nth (pos r s') g 0%R) (perm_set s)) / INR (length (perm_set s)))%R.
Proof. intros Hg Hs.
  assert (In s (flat_map perm_set (desc p r))) as H by (eapply Permutation_in; [apply tuples_flat_perms|auto]).
  apply in_flat_map in H. destruct H as [t [Ht Hst]]. apply in_perm_set in Hst.
  apply (In_nth _ _ []) in Ht. destruct Ht as [fj [Hfj Et]]. subst t.
  rewrite (expand_entry p r _ g0 fj s); auto.
  assert (Permutation (perm_set s) (perm_set (nth fj (desc p r) []))) as HP.
  { apply NoDup_Permutation; auto using NoDup_perm_set. intros x. rewrite !in_perm_set. split; intros K; rewrite K; auto.
    apply Permutation_sym; auto. }
  rewrite <- (Permutation_length HP). f_equal. unfold crow.
  rewrite (nth_map_in _ _ _ _ []) by auto. apply lsum_Permutation, Permutation_map, Permutation_sym, HP. Qed.

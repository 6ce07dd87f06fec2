(* OpsProofs.v -- lemmas about OpsModel.v *)
From Verif Require Import LinAlg MatAlg SpecOps TupleLemmas TupleProofs TupleFinal.
From Verif Require Export OpsModel.
#[local] Open Scope nat_scope.

(* the column of data an operator multiplies its entries with *)
Definition datavec (o : op) (q u : vec) : vec :=
  match o with
  | OConst _ => [1%R]
  | OLin _ => q
  | OPoly d _ => ckron_of Rmult d q
  | OInp _ => u
  | OStIn _ => kronv u q
  end.

Lemma matvec_r_ok r n A v : 0 < r -> is_mat r n A -> is_vec n v -> matvec_r A v = Ok (matvec A v).
Proof. intros Hr HA Hv. unfold matvec_r. rewrite (ncols_is_mat r n), Hv by auto. rewrite Nat.eqb_refl. auto. Qed.
Lemma matmul_r_ok r n c A B : 0 < r -> is_mat r n A -> is_mat n c B -> matmul_r A B = Ok (matmul A B).
Proof. intros Hr HA [HB _]. unfold matmul_r, nrows. rewrite (ncols_is_mat r n), HB by auto. rewrite Nat.eqb_refl. auto. Qed.

Lemma kronv_length u v : length (kronv u v) = length u * length v.
Proof. unfold kronv. induction u as [|a u IH]; simpl; auto. rewrite app_length, IH. unfold vscale. rewrite map_length. auto. Qed.

Lemma vget_kronv u v i j : j < length v -> vget (kronv u v) (i * length v + j) = (vget u i * vget v j)%R.
Proof. intros Hj. revert i. induction u as [|a u IH]; intros i.
  - unfold kronv. simpl. unfold vget. destruct (i * length v + j), i; simpl; ring.
  - unfold kronv. simpl. destruct i.
    + rewrite vget_app_l by (unfold vscale; rewrite map_length; lia). simpl. rewrite vget_vscale. reflexivity.
    + rewrite vget_app_r by (unfold vscale; rewrite map_length; lia). replace (length (vscale a v)) with (length v) by (unfold vscale; rewrite map_length; auto).
      replace (S i * length v + j - length v) with (i * length v + j) by (simpl; lia). rewrite IH. reflexivity. Qed.

Lemma opdim_1 d : operator_dimension d 1 = 1. Proof. destruct d; reflexivity. Qed.
Lemma opdim_pos d r : 0 < r -> 0 < operator_dimension d r.
Proof. intros H. rewrite operator_dimension_desc. destruct r as [|r]; [lia|].
  assert (In (repeat 0 (deg d)) (desc (deg d) (S r))) as K.
  { rewrite <- monomials_desc. unfold monomials. apply filter_In. split.
    - apply in_tuples. split; [apply repeat_length|]. apply Forall_forall. intros x Hx. apply repeat_spec in Hx. lia.
    - destruct d; reflexivity. }
  destruct (desc (deg d) (S r)); [destruct K|simpl; lia]. Qed.

Lemma ckron_1 d x : ckron_of Rmult d [x] = [(x ^ deg d)%R].
Proof. destruct d; cbn; f_equal; ring. Qed.

Lemma mat_1_1 A : is_mat 1 1 A -> A = [[e00 A]].
Proof. intros [Hl HF]. destruct A as [|row [|? ?]]; try discriminate. inversion HF as [|? ? K ?]; subst.
  destruct row as [|x [|? ?]]; try discriminate. reflexivity. Qed.
Lemma vec_1 v : is_vec 1 v -> v = [vget v 0].
Proof. destruct v as [|x [|? ?]]; try discriminate. reflexivity. Qed.

Lemma map_const_repeat {A B} (x : B) (l : list A) : map (fun _ => x) l = repeat x (length l).
Proof. induction l; simpl; congruence. Qed.
Lemma is_vec_ckron d r q : is_vec r q -> is_vec (operator_dimension d r) (ckron_of Rmult d q).
Proof. intros <-. apply ckron_length_lemma. Qed.
Lemma is_vec_kronv m r u q : is_vec m u -> is_vec r q -> is_vec (r * m) (kronv u q).
Proof. intros Hu Hq. unfold is_vec. rewrite kronv_length, Hu, Hq. apply Nat.mul_comm. Qed.

Lemma is_mat_map_gen {A} r c (l : list A) (g : A -> vec) : length l = r -> (forall x, In x l -> length (g x) = c) ->
  is_mat r c (map g l).
Proof. intros H1 H2. split; [rewrite map_length; auto|]. apply Forall_forall. intros y Hy. apply in_map_iff in Hy.
  destruct Hy as [x [<- Hx]]. auto. Qed.

Lemma entries2_shape r m o : wf_op r m o -> is_mat r (opdim o r m) (entries2 o).
Proof. destruct o; simpl; auto. intros H. apply is_mat_map_gen; [auto|]. intros; reflexivity. Qed.
Lemma is_vec_datavec r m o q u : wf_op r m o -> is_vec r q -> is_vec m u -> is_vec (opdim o r m) (datavec o q u).
Proof. destruct o; simpl; intros; auto; [reflexivity|apply is_vec_ckron; auto|apply is_vec_kronv; auto]. Qed.
Lemma is_mat_nrows r c A : is_mat r c A -> nrows A = r. Proof. intros [H _]; exact H. Qed.

Lemma entries2_const c : matvec (entries2 (OConst c)) [1%R] = c.
Proof. unfold entries2, matvec. rewrite map_map. simpl. rewrite <- (map_id c) at 2. apply map_ext. intros; ring. Qed.

Lemma single_eq (x y : R) : x = y -> Ok (V [x]) = Ok (V [y]). Proof. intros ->; reflexivity. Qed.

Lemma maskprod_mono d q : q <> [] -> exists p, maskprod q (monomials (deg d) (length q)) = Ok p /\ p = ckron_of Rmult d q.
Proof. intros H. destruct (ckron_mask d q H) as [mask [E1 [E2 _]]]. rewrite ckron_indices_lemma in E1.
  injection E1 as <-. exists (ckron_of Rmult d q). split; auto. rewrite E2. unfold ckron. destruct q; tauto. Qed.

Lemma apply_vec r m o q u : 0 < r -> 0 < m -> wf_op r m o -> is_vec r q -> is_vec m u ->
  apply o (V q) (V u) = Ok (V (matvec (entries2 o) (datavec o q u))).
Proof. intros Hr Hm Hwf Hq Hu. destruct o as [c|A|d H|B|N]; cbn [apply wf_op datavec] in *.
  - rewrite entries2_const. destruct (Nat.eqb_spec (length c) 1) as [E|E]; auto.
    unfold is_vec in Hwf. assert (r = 1) by lia. subst r. rewrite (vec_1 q), (vec_1 c) by (unfold is_vec; congruence).
    reflexivity.
  - rewrite (is_mat_nrows r r) by auto. destruct (Nat.eqb_spec r 1) as [->|E].
    + rewrite (mat_1_1 A), (vec_1 q) by auto. cbn. apply single_eq. ring.
    + cbn [matdot]. rewrite (matvec_r_ok r r) by auto. reflexivity.
  - rewrite (is_mat_nrows r (operator_dimension d r)) by auto. destruct (Nat.eqb_spec r 1) as [->|E].
    + rewrite opdim_1 in Hwf. rewrite (mat_1_1 H), (vec_1 q) by auto. rewrite ckron_1.
      cbn -[deg pow]. apply single_eq. ring.
    + rewrite ckron_indices_lemma.
      assert (Hn : q <> []) by (intros ->; unfold is_vec in Hq; simpl in Hq; lia).
      destruct (maskprod_mono d q Hn) as [p [Ep ->]]. rewrite Hq in Ep. rewrite Ep.
      cbn [matdot]. rewrite (matvec_r_ok r (operator_dimension d r)); auto. apply is_vec_ckron; auto.
  - rewrite (is_mat_nrows r m), (ncols_is_mat r m) by auto. destruct (Nat.eqb_spec m 1) as [->|E].
    + rewrite Hu. destruct (Nat.eqb_spec r 1) as [->|E'].
      * rewrite (mat_1_1 B), (vec_1 u) by auto. cbn. apply single_eq. ring.
      * simpl. unfold vmul_b. rewrite map_length, Hu. destruct Hwf as [HlB HB]. rewrite HlB.
        destruct (Nat.eqb_spec r 1) as [|_]; [lia|]. rewrite (vec_1 u) by auto.
        unfold vscale, matvec. rewrite map_map. cbn. do 2 f_equal. apply map_ext_in. intros row Hrow.
        rewrite Forall_forall in HB. specialize (HB _ Hrow). rewrite (vec_1 row) by auto. cbn. ring.
    + cbn [matdot]. rewrite (matvec_r_ok r m) by auto. reflexivity.
  - rewrite (is_mat_nrows r (r * m)), (ncols_is_mat r (r * m)) by auto. destruct (Nat.eqb_spec (r * m) 1) as [E|E].
    + assert (r = 1) by nia. assert (m = 1) by nia. subst. simpl in Hwf.
      rewrite (mat_1_1 N), (vec_1 u), (vec_1 q) by auto. cbn. apply single_eq. ring.
    + rewrite Hq, Hu. replace ((r =? 1) && (1 <? r)) with false by (destruct (Nat.eqb_spec r 1); subst; auto).
      simpl. rewrite (matvec_r_ok r (r * m)); auto. apply is_vec_kronv; auto. Qed.

(* ---- matrices of states ------------------------------------------------------------------------- *)
Lemma khatri_shape m r k U Q : is_mat m k U -> is_mat r k Q ->
  is_mat (r * m) k (flat_map (fun urow => map (vmul urow) Q) U).
Proof. intros [HlU HU] [HlQ HQ]. subst m. revert HU. induction U as [|a U IH]; intros HU.
  - rewrite Nat.mul_0_r. apply is_mat_nil.
  - apply Forall_cons_iff in HU; destruct HU as [Ha HU']. cbn [flat_map]. replace (r * length (a :: U)) with (r + r * length U) by (simpl; lia).
    apply is_mat_app; auto. apply is_mat_map; auto. intros row Hrow. rewrite Forall_forall in HQ.
    apply is_vec_vmul; [exact Ha|]. apply HQ; auto. Qed.

Lemma khatri_get m r k U Q i l j : is_mat m k U -> is_mat r k Q -> i < m -> l < r -> j < k ->
  mget (flat_map (fun urow => map (vmul urow) Q) U) (i * r + l) j = (mget U i j * mget Q l j)%R.
Proof. intros [HlU HU] HQ. subst m. revert i HU. induction U as [|a U IH]; intros i HU Hi Hl Hj; [simpl in Hi; lia|].
  apply Forall_cons_iff in HU; destruct HU as [Ha HU']. cbn [flat_map]. rewrite (mget_app r) by (rewrite map_length; destruct HQ; auto).
  destruct i as [|i].
  - simpl. rewrite (proj2 (Nat.ltb_lt _ _)) by lia. rewrite (mget_map r k) by auto.
    rewrite (vget_vmul k); [reflexivity|exact Ha|]. apply (is_mat_row r); auto.
  - rewrite (proj2 (Nat.ltb_ge _ _)) by (simpl; lia). replace (S i * r + l - r) with (i * r + l) by (simpl; lia).
    simpl in Hi. rewrite IH by (auto; lia). reflexivity. Qed.

Lemma khatri_col m r k U Q j : is_mat m k U -> is_mat r k Q -> 0 < r -> j < k ->
  colv (r * m) (flat_map (fun urow => map (vmul urow) Q) U) j = kronv (colv m U j) (colv r Q j).
Proof. intros HU HQ Hr Hj. apply (vec_ext (r * m)); [apply is_vec_colv|apply is_vec_kronv; apply is_vec_colv|].
  intros x Hx. rewrite vget_colv by auto. pose proof (Nat.div_mod x r ltac:(lia)) as E.
  assert (x / r < m) by (apply Nat.div_lt_upper_bound; lia).
  assert (x mod r < r) by (apply Nat.mod_upper_bound; lia).
  rewrite E, (Nat.mul_comm r (x / r)). rewrite (khatri_get m r k) by auto.
  pose proof (vget_kronv (colv m U j) (colv r Q j) (x / r) (x mod r)) as K. rewrite (is_vec_colv r Q j) in K.
  rewrite K by auto.
  rewrite !vget_colv by auto. reflexivity. Qed.

(* the data block of an operator *)
Definition datamat (o : op) (Q U : mat) : mat :=
  match o with
  | OConst _ => [repeat 1%R (ncols Q)]
  | OLin _ => Q
  | OPoly d _ => ckron_of vmul d Q
  | OInp _ => U
  | OStIn _ => flat_map (fun urow => map (vmul urow) Q) U
  end.

Lemma datablock_ok r m k o Q U : 0 < r -> 0 < m -> is_mat r k Q -> is_mat m k U ->
  datablock o (M Q) (M U) = Ok (datamat o Q U).
Proof. intros Hr Hm HQ HU. destruct o; cbn; auto.
  - unfold ckron. destruct Q; auto. destruct HQ; simpl in *; lia.
  - unfold khatri_rao. rewrite (ncols_is_mat m k), (ncols_is_mat r k), Nat.eqb_refl by auto. reflexivity. Qed.

Lemma datamat_shape r m k o Q U : 0 < r -> is_mat r k Q -> is_mat m k U -> is_mat (opdim o r m) k (datamat o Q U).
Proof. intros Hr HQ HU. destruct o; cbn [opdim datamat]; auto.
  - split; auto. constructor; auto. rewrite repeat_length. apply (ncols_is_mat r); auto.
  - apply ckron_of_shape; auto.
  - apply khatri_shape; auto. Qed.

Lemma colv_eq_map r k Q j : is_mat r k Q -> colv r Q j = map (fun row => vget row j) Q.
Proof. intros [Hl _]. unfold colv. subst r. apply (list_ext 0%R); rewrite !map_length, seq_length; auto.
  intros i Hi. rewrite nth_map_seq by auto. rewrite (nth_map_in _ _ _ _ []) by auto. reflexivity. Qed.

Lemma datamat_col r m k o Q U j : 0 < r -> is_mat r k Q -> is_mat m k U -> j < k ->
  colv (opdim o r m) (datamat o Q U) j = datavec o (colv r Q j) (colv m U j).
Proof. intros Hr HQ HU Hj. destruct o; cbn [opdim datamat datavec]; auto.
  - cbn. unfold mget; cbn. rewrite (ncols_is_mat r k) by auto. f_equal. revert j Hj.
    clear. induction k; intros j Hj; [lia|]. destruct j; cbn; auto. apply IHk; lia.
  - rewrite (colv_eq_map (operator_dimension d r) k (ckron_of vmul d Q)) by (apply ckron_of_shape; auto). apply (ckron_of_col _ r k); auto.
  - apply (khatri_col m r k); auto. Qed.

Lemma emap_M_11 f x : emap f (M x) = M (map (map f) x). Proof. reflexivity. Qed.

(* state[mask] row products are the compressed Kronecker rows *)
Lemma maskprod_rows_ok d Q : Q <> [] -> exists P, maskprod_rows Q (monomials (deg d) (length Q)) = Ok P /\
  forall r k, is_mat r k Q -> is_mat (operator_dimension d r) k P /\ forall j, j < k ->
    map (fun row => vget row j) P = ckron_of Rmult d (colv r Q j).
Proof. intros HQ. unfold maskprod_rows.
  assert (forallb (forallb (fun i => i <? length Q)) (monomials (deg d) (length Q)) = true) as ->.
  { apply forallb_forall. intros t Ht. unfold monomials in Ht. apply filter_In in Ht. destruct Ht as [Ht _].
    apply in_tuples in Ht. destruct Ht as [_ Ht]. apply forallb_forall. intros i Hi. rewrite Forall_forall in Ht.
    apply Nat.ltb_lt. auto. }
  eexists. split; [reflexivity|]. intros r k HM. destruct HM as [Hl HF]. subst r.
  assert (Hrow : forall i, i < length Q -> is_vec k (nth i Q [])).
  { intros i Hi. apply (is_mat_row (length Q)); auto. split; auto. }
  assert (Hfold : forall t acc, Forall (fun i => i < length Q) t -> is_vec k acc ->
     is_vec k (fold_left (fun acc k0 => vmul acc (nth k0 Q [])) t acc) /\
     forall j, j < k -> vget (fold_left (fun acc k0 => vmul acc (nth k0 Q [])) t acc) j =
       (vget acc j * mono (colv (length Q) Q j) t)%R).
  { induction t as [|i t IH]; intros acc Ht Hacc; cbn [fold_left].
    - split; auto. intros. unfold mono. cbn. unfold lprod. simpl. ring.
    - inversion Ht; subst. destruct (IH (vmul acc (nth i Q []))) as [I1 I2]; auto.
      { apply is_vec_vmul; auto. }
      split; auto. intros j Hj. rewrite I2 by auto. rewrite (vget_vmul k) by auto.
      unfold mono. cbn [map]. unfold lprod. cbn [fold_right]. rewrite vget_colv by auto. unfold mget, vget. ring. }
  assert (Hmon : forall t, In t (monomials (deg d) (length Q)) -> exists i t', t = i :: t' /\ i < length Q /\ Forall (fun i => i < length Q) t').
  { intros t Ht. unfold monomials in Ht. apply filter_In in Ht. destruct Ht as [Ht _]. apply in_tuples in Ht.
    destruct Ht as [H1 H2]. destruct t as [|i t']; [destruct d; discriminate|]. inversion H2; subst. eauto. }
  split.
  - split; [rewrite map_length, operator_dimension_desc, monomials_desc; auto|].
    apply Forall_forall. intros row Hr. apply in_map_iff in Hr. destruct Hr as [t [<- Ht]].
    destruct (Hmon _ Ht) as [i [t' [-> [Hi Ht']]]]. apply Hfold; auto.
  - intros j Hj. rewrite map_map, ckron_of_mono. rewrite (is_vec_colv (length Q) Q j). apply map_ext_in. intros t Ht.
    destruct (Hmon _ Ht) as [i [t' [-> [Hi Ht']]]]. rewrite (proj2 (Hfold t' _ Ht' (Hrow i Hi))) by auto.
    unfold mono. cbn [map]. unfold lprod; cbn [fold_right]. rewrite vget_colv by auto. reflexivity. Qed.

Lemma mat_1_k k A : is_mat 1 k A -> A = [nth 0 A []] /\ is_vec k (nth 0 A []).
Proof. intros [Hl HF]. destruct A as [|row [|? ?]]; try discriminate. apply Forall_cons_iff in HF. split; auto. apply HF. Qed.

Lemma matmul_1_1 k e row : is_vec k row -> matmul [[e]] [row] = [map (Rmult e) row].
Proof. intros H. apply (mat_ext 1 k).
  - apply (is_mat_matmul 1 1 k); [split; auto|split; auto|lia].
  - split; auto. constructor; auto. rewrite map_length; auto.
  - intros i j Hi Hj. assert (i = 0) by lia. subst. rewrite (mget_matmul 1 1 k); [|split; auto|split; auto|lia].
    cbn. unfold mget. cbn. change (nth j (map (Rmult e) row) 0%R) with (vget (map (Rmult e) row) j).
    rewrite vget_map by (rewrite H; auto). unfold vget. ring. Qed.

Lemma repeat_vget x k j : j < k -> vget (repeat x k) j = x.
Proof. revert j. induction k; intros j Hj; [lia|]. destruct j; cbn; auto. apply IHk; lia. Qed.

Lemma const_cols r k c : is_vec r c ->
  is_mat r k (matmul (map (fun x => [x]) c) [repeat 1%R k]) /\
  forall i j, i < r -> j < k -> mget (matmul (map (fun x => [x]) c) [repeat 1%R k]) i j = vget c i.
Proof. intros Hc. unfold is_vec in Hc.
  assert (H1 : is_mat r 1 (map (fun x => [x]) c)) by (apply is_mat_map_gen; auto; intros; reflexivity).
  assert (H2 : is_mat 1 k [repeat 1%R k]) by (split; auto; constructor; auto; apply repeat_length).
  split; [apply (is_mat_matmul r 1 k); auto|]. intros i j Hi Hj. rewrite (mget_matmul r 1 k) by auto.
  unfold bsum. unfold mget. rewrite (nth_map_in _ _ _ _ 0%R) by lia. cbn [nth].
  change (nth j (repeat 1%R k) 0%R) with (vget (repeat 1%R k) j). rewrite repeat_vget by auto. unfold vget. ring. Qed.

Lemma apply_mat r m k o Q U : 0 < r -> 0 < m -> wf_op r m o -> is_mat r k Q -> is_mat m k U ->
  apply o (M Q) (M U) = Ok (M (matmul (entries2 o) (datamat o Q U))).
Proof. intros Hr Hm Hwf HQ HU. destruct o as [c|A|d H|B|N]; cbn [apply wf_op datamat entries2] in *.
  - pose proof (ncols_is_mat r k Q HQ Hr) as Hk. rewrite Hk. destruct (const_cols r k c Hwf) as [HC HG].
    unfold is_vec in Hwf. destruct (Nat.eqb_spec (length c) 1) as [E|E].
    + rewrite E in Hwf. subst r. cbn [emap]. do 2 f_equal. apply (mat_ext 1 k); auto.
      * apply is_mat_map; [destruct HQ; auto|]. intros row Hrow. rewrite map_length. destruct HQ as [_ HF].
        rewrite Forall_forall in HF. auto.
      * intros i j Hi Hj. rewrite HG by auto. rewrite (mget_map 1 k) by auto.
        rewrite vget_map; [assert (i = 0) by lia; subst; reflexivity|]. rewrite (is_mat_row 1 k Q i) by auto. auto.
    + do 2 f_equal. apply (mat_ext r k); auto.
      * apply is_mat_map_gen; auto. intros. rewrite map_length, seq_length. auto.
      * intros i j Hi Hj. rewrite HG by auto. unfold mget. rewrite (nth_map_in _ _ _ _ 0%R) by lia.
        rewrite nth_map_seq by auto. reflexivity.
  - rewrite (is_mat_nrows r r) by auto. destruct (Nat.eqb_spec r 1) as [->|E].
    + destruct (mat_1_k k Q HQ) as [-> HR]. rewrite (mat_1_1 A) by auto. cbn [emap]. cbn [nth] in HR.
      rewrite (matmul_1_1 k) by auto. reflexivity.
    + cbn [matdot]. rewrite (matmul_r_ok r r k) by auto. reflexivity.
  - rewrite (is_mat_nrows r (operator_dimension d r)) by auto. destruct (Nat.eqb_spec r 1) as [->|E].
    + rewrite opdim_1 in Hwf. pose proof (ckron_of_shape d 1 k Q HQ) as HS. rewrite opdim_1 in HS.
      destruct (mat_1_k k _ HS) as [ES HR]. rewrite (mat_1_1 H) by auto. rewrite ES, (matmul_1_1 k) by auto.
      destruct (mat_1_k k Q HQ) as [EQ HRQ]. rewrite EQ. cbn [emap map e00 nth]. do 3 f_equal.
      apply (vec_ext k); [unfold is_vec; rewrite map_length; auto|unfold is_vec; rewrite map_length; auto; rewrite <- EQ; auto|].
      { intros j Hj. rewrite !vget_map; rewrite <- ?EQ; try (rewrite HR || rewrite HRQ); auto. f_equal.
        pose proof (ckron_of_col d 1 k Q j HQ Hj) as K. rewrite ES in K. cbn [map colv seq] in K.
        rewrite ckron_1 in K. injection K as K. rewrite K. reflexivity. }
    + rewrite ckron_indices_lemma.
      assert (Hn : Q <> []) by (intros ->; destruct HQ; simpl in *; lia).
      destruct (maskprod_rows_ok d Q Hn) as [P [EP HP]]. destruct (HP r k HQ) as [HS HC].
      replace (length Q) with r in EP by (destruct HQ; auto). rewrite EP.
      assert (P = ckron_of vmul d Q) as ->.
      { apply (mat_ext_col (operator_dimension d r) k); auto; [apply ckron_of_shape; auto|].
        intros j Hj. rewrite !(colv_eq_map _ k) by (auto; apply ckron_of_shape; auto).
        rewrite HC by auto. symmetry. apply (ckron_of_col _ r k); auto. }
      cbn [matdot]. rewrite (matmul_r_ok r (operator_dimension d r) k); auto.
  - cbn [matdot]. rewrite (matmul_r_ok r m k) by auto. reflexivity.
  - rewrite (ncols_is_mat r (r * m)) by auto. destruct (Nat.eqb_spec (r * m) 1) as [E|E].
    + assert (r = 1) by nia. assert (m = 1) by nia. subst. simpl in Hwf.
      destruct (mat_1_k k Q HQ) as [-> HR]. destruct (mat_1_k k U HU) as [-> HR']. cbn [nth] in *.
      rewrite (mat_1_1 N) by auto. cbn [emap map flat_map e00 nth app arr_mul].
      assert (is_vec k (vmul (nth 0 U []) (nth 0 Q []))) by (apply is_vec_vmul; auto).
      rewrite (matmul_1_1 k) by auto. unfold vmul_b. rewrite map_length, HR, HR', Nat.eqb_refl. do 3 f_equal.
      apply (vec_ext k); [apply is_vec_vmul; auto; unfold is_vec; rewrite map_length; auto
                         |unfold is_vec; rewrite map_length; auto|].
      intros j Hj. rewrite vget_map by (rewrite H; auto).
      rewrite !(vget_vmul k) by (auto; unfold is_vec; rewrite map_length; auto).
      rewrite vget_map by (rewrite HR'; auto). ring.
    + cbn [orb negb]. unfold khatri_rao. cbn [atleast_2d].
      rewrite (ncols_is_mat m k), (ncols_is_mat r k), Nat.eqb_refl by auto.
      cbn [matdot]. rewrite (matmul_r_ok r (r * m) k); auto. apply khatri_shape; auto. Qed.

(* entries @ datablock is apply, column by column *)
Lemma apply_columns r m k o Q U : 0 < r -> 0 < m -> wf_op r m o -> is_mat r k Q -> is_mat m k U ->
  exists D Y, datablock o (M Q) (M U) = Ok D /\ apply o (M Q) (M U) = Ok (M Y) /\
    is_mat (opdim o r m) k D /\ is_mat r k Y /\ Y = matmul (entries2 o) D /\
    forall j, j < k -> apply o (V (colv r Q j)) (V (colv m U j)) = Ok (V (colv r Y j)).
Proof. intros Hr Hm Hwf HQ HU. exists (datamat o Q U), (matmul (entries2 o) (datamat o Q U)).
  assert (HD : is_mat (opdim o r m) k (datamat o Q U)) by (apply datamat_shape; auto).
  assert (HE := entries2_shape r m o Hwf).
  assert (Hp : 0 < opdim o r m) by (destruct o; simpl; try lia; try nia; apply opdim_pos; auto).
  assert (HY : is_mat r k (matmul (entries2 o) (datamat o Q U))) by (apply (is_mat_matmul r (opdim o r m)); auto).
  split; [apply (datablock_ok r m k); auto|]. split; [apply (apply_mat r m k); auto|].
  split; auto. split; auto. split; auto. intros j Hj.
  rewrite (apply_vec r m) by (auto using is_vec_colv). do 2 f_equal.
  rewrite (colv_matmul r (opdim o r m) k) by auto. rewrite (datamat_col r m k) by auto. reflexivity. Qed.

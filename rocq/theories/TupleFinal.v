(* TupleFinal.v -- the statements about QuadraticOperator / CubicOperator / QuarticOperator utilities. *)
From Verif Require Export NewtonProofs.
#[local] Open Scope nat_scope.
(* conversion hint only: compare calls of the Newton loops argument-wise before unrolling them *)
Strategy 1000 [newton3 newton4].

Lemma operator_dimension_desc d r : operator_dimension d r = length (desc (deg d) r).
Proof. destruct d; [apply opdim2_desc|apply opdim3_desc|apply opdim4_desc]. Qed.

Lemma ckron_of_mono d q : ckron_of Rmult d q = map (mono q) (monomials (deg d) (length q)).
Proof. rewrite monomials_desc. destruct d; [apply ckron2_mono|apply ckron3_mono|apply ckron4_mono]. Qed.

Lemma ckron_enumerates d q : q <> [] -> ckron Rmult d q = Ok (map (mono q) (monomials (deg d) (length q))).
Proof. intros H. unfold ckron. destruct q; [tauto|]. rewrite ckron_of_mono. reflexivity. Qed.

Lemma ckron_indices_lemma d r : ckron_indices d r = Ok (monomials (deg d) r).
Proof. rewrite monomials_desc. destruct d; [apply ckron_indices2_ok|apply ckron_indices3_ok|apply ckron_indices4_ok]. Qed.

Lemma ckron_mask d q : q <> [] -> exists mask,
  ckron_indices d (length q) = Ok mask /\ maskprod q mask = ckron Rmult d q /\
  length mask = operator_dimension d (length q).
Proof. intros Hq. exists (monomials (deg d) (length q)). split; [apply ckron_indices_lemma|]. split.
  - rewrite ckron_enumerates by auto. rewrite monomials_desc. apply maskprod_desc.
  - rewrite operator_dimension_desc, monomials_desc. auto. Qed.

Lemma monomials_once p r : NoDup (monomials p r) /\
  (forall t, length t = p -> Forall (fun i => i < r) t ->
     exists s, (In s (monomials p r) /\ Permutation s t) /\
               forall s', In s' (monomials p r) -> Permutation s' t -> s' = s).
Proof. split; [rewrite monomials_desc; apply NoDup_desc|]. intros t Hl HF. exists (sortd t).
  assert (HP := sortd_perm t). split; [split; auto|].
  - unfold monomials. apply filter_In. split; [|apply sortd_noninc].
    apply in_tuples. split; [rewrite (Permutation_length HP); auto|].
    eapply Permutation_Forall; [apply Permutation_sym, HP|auto].
  - intros s' Hs' HP'. unfold monomials in Hs'. apply filter_In in Hs'. destruct Hs' as [_ Hn].
    apply noninc_perm_unique; auto; [apply sortd_noninc|]. rewrite HP', HP. auto. Qed.

Lemma ckron_length_lemma d q : length (ckron_of Rmult d q) = operator_dimension d (length q).
Proof. rewrite ckron_of_mono, map_length, operator_dimension_desc, monomials_desc; auto. Qed.

Lemma ckron_of_col d r k Q j : is_mat r k Q -> j < k ->
  map (fun row => vget row j) (ckron_of vmul d Q) = ckron_of Rmult d (colv r Q j).
Proof. intros [Hl HF] Hj.
  assert (colv r Q j = map (fun row => vget row j) Q) as ->.
  { unfold colv. rewrite <- Hl. apply (list_ext 0%R); rewrite !map_length, ?seq_length; auto.
    intros i Hi. rewrite nth_map_seq by auto. rewrite (nth_map_in _ _ _ _ nil) by auto. reflexivity. }
  destruct d; simpl; [apply (ckron2_col k)|apply (ckron3_col k)|apply (ckron4_col k)]; auto. Qed.

Lemma ckron_of_shape d r k Q : is_mat r k Q -> is_mat (operator_dimension d r) k (ckron_of vmul d Q).
Proof. intros [Hl HF]. split.
  - destruct k as [|k].
    + (* no columns: count rows through any homomorphism to reals *)
      assert (forall st, length (ckron_of vmul d st) = length (ckron_of Rmult d (map (fun _ => 0%R) st))) as H.
      { intros st. rewrite <- (map_length (fun _ : vec => 0%R) (ckron_of vmul d st)).
        assert (forall st lens k s, map (fun _ : vec => 0%R) (flat_map (fun p => let '(i, si) := p in map (vmul si) (firstn (lens i) k)) (combine (seq s (length st)) st)) = flat_map (fun p => let '(i, si) := p in map (Rmult si) (firstn (lens i) (map (fun _ => 0%R) k))) (combine (seq s (length (map (fun _ : vec => 0%R) st))) (map (fun _ : vec => 0%R) st))) as G.
        { intros st0 lens k0. induction st0 as [|a st0 IH]; intros s; simpl; auto.
          rewrite map_app, map_map. f_equal; auto. rewrite firstn_map, map_map. apply map_ext. intros; ring. }
        f_equal. destruct d; simpl; unfold ckron4, ckron3, ckron2.
        - apply (G st (fun i => i + 1) st 0).
        - rewrite (G st (fun i => binom2 (i + 2)) _ 0). rewrite (G st (fun i => i + 1) st 0). reflexivity.
        - rewrite (G st (fun i => binom3 (i + 3)) _ 0).
          rewrite (G st (fun i => binom2 (i + 2)) _ 0). rewrite (G st (fun i => i + 1) st 0). reflexivity. }
      rewrite H, ckron_length_lemma, map_length. congruence.
    + rewrite <- (map_length (fun row => vget row 0)). rewrite (ckron_of_col d r (S k)) by (first [lia | split; auto]).
      rewrite ckron_length_lemma. unfold colv. rewrite map_length, seq_length. auto.
  - destruct d; simpl; [apply (ckron2_closed k)|apply (ckron3_closed k)|apply (ckron4_closed k)]; auto. Qed.

(* ---------------------------------------------------------------- Kronecker power *)
Lemma kron_power_mono p q : kron_power p q = map (mono q) (tuples p (length q)).
Proof. induction p as [|p IH]; [reflexivity|]. cbn [kron_power]. rewrite IH.
  rewrite <- kronv_mono, kronv_flat_map. reflexivity. Qed.

Definition crow_of (d : degree) := match d with
  Quadratic => compress_row2 | Cubic => compress_row3 | Quartic => compress_row4 end.
Definition erow_of (d : degree) := match d with
  Quadratic => expand_row2 | Cubic => expand_row3 | Quartic => expand_row4 end.
Lemma crow_of_crow d r g : crow_of d r g = crow (deg d) r g.
Proof. destruct d; [apply compress_row2_crow|apply compress_row3_crow|apply compress_row4_crow]. Qed.
Lemma erow_of_writes d r g0 gc : erow_of d r g0 gc = writes (ewrites (deg d) r gc) g0.
Proof. destruct d; [apply expand_row2_writes|apply expand_row3_writes|apply expand_row4_writes]. Qed.
Lemma deg_pos d : 0 < deg d.  Proof. destruct d; simpl; lia. Qed.

Lemma compress_ok d r H : ncols H = r ^ deg d -> compress d H = Ok (map (crow_of d r) H).
Proof. intros E.
  assert (compress d H = compress_entries (deg d) (crow_of d) H) as -> by (destruct d; reflexivity).
  unfold compress_entries. rewrite E, nearest_root_pow by apply deg_pos. rewrite Nat.eqb_refl. reflexivity. Qed.

Lemma compress_rejects d H : (forall r, ncols H <> r ^ deg d) -> compress d H = Err ValueError.
Proof. intros E.
  assert (compress d H = compress_entries (deg d) (crow_of d) H) as -> by (destruct d; reflexivity).
  unfold compress_entries. destruct (Nat.eqb_spec (nearest_root (deg d) (ncols H) ^ deg d) (ncols H)) as [K|K]; auto.
  exfalso. apply (E _ (eq_sym K)). Qed.

Lemma matvec_map_row (f : vec -> vec) H x y : (forall row, In row H -> dot (f row) x = dot row y) ->
  matvec (map f H) x = matvec H y.
Proof. intros E. unfold matvec. rewrite map_map. apply map_ext_in. auto. Qed.

Lemma compress_preserves d a r H : 0 < a -> is_mat a (r ^ deg d) H ->
  exists Hc, compress d H = Ok Hc /\ is_mat a (operator_dimension d r) Hc /\
    forall q, is_vec r q -> matvec Hc (ckron_of Rmult d q) = matvec H (kron_power (deg d) q).
Proof. intros Ha HM. exists (map (crow_of d r) H). split; [|split].
  - apply compress_ok. apply (ncols_is_mat a); auto.
  - destruct HM as [Hl HF]. split; [rewrite map_length; auto|]. apply Forall_map. apply Forall_forall. intros row _.
    rewrite crow_of_crow, operator_dimension_desc. unfold crow. apply map_length.
  - intros q Hq. apply matvec_map_row. intros row Hr. rewrite crow_of_crow, ckron_of_mono, kron_power_mono, monomials_desc.
    rewrite Hq. apply crow_dot. destruct HM as [_ HF]. rewrite Forall_forall in HF; auto. Qed.

(* ---------------------------------------------------------------- expand *)
(* the sizes for which ten Newton iterations are proved to suffice *)
Definition newton_guard (d : degree) (r : nat) : Prop :=
  match d with Quadratic => True | Cubic => (INR r <= 10 ^ 11)%R | Quartic => (INR r <= 10 ^ 8)%R end.

Lemma expand_ok d junk r Hc : newton_guard d r -> ncols Hc = operator_dimension d r ->
  expand d junk Hc = Ok (map (erow_of d r (junk (r ^ deg d))) Hc).
Proof. intros G E. destruct d; simpl in *.
  - unfold expand_entries2. rewrite E, rfrom2_ok. unfold opdim2. rewrite Nat.eqb_refl. reflexivity.
  - unfold expand_entries3. rewrite E, (rfrom3_ok r) by auto.
    replace (Z.eqb _ _) with true. { simpl. rewrite Nat2Z.id. reflexivity. }
    symmetry. apply Z.eqb_eq. unfold opdim3. rewrite Nat2Z.inj_div. f_equal. lia.
  - unfold expand_entries4. rewrite E, (rfrom4_ok r) by auto.
    replace (Z.eqb _ _) with true. { simpl. rewrite Nat2Z.id. reflexivity. }
    symmetry. apply Z.eqb_eq. unfold opdim4. rewrite Nat2Z.inj_div. f_equal. lia. Qed.

Lemma newton3_err n : forall b x e, newton3 n b x = Err e -> e = ValueError.
Proof. induction n as [|n IH]; intros b x e; cbn [newton3]; [congruence|].
  match goal with |- context [Rlt_dec ?a ?b] => destruct (Rlt_dec a b) end; [congruence|apply IH]. Qed.
Lemma rfrom3_err b e : rfrom3 b = Err e -> e = ValueError.
Proof. apply newton3_err. Qed.

Lemma newton4_err n : forall b x e, newton4 n b x = Err e -> e = ValueError.
Proof. induction n as [|n IH]; intros b x e; cbn [newton4]; [congruence|].
  match goal with |- context [Rlt_dec ?a ?b] => destruct (Rlt_dec a b) end; [congruence|apply IH]. Qed.
Lemma rfrom4_err b e : rfrom4 b = Err e -> e = ValueError.
Proof. apply newton4_err. Qed.

Lemma newton3_sound' r n b x z : b = (INR r * (INR r + 1) * (INR r + 2))%R ->
  (INR r <= x)%R \/ (exists k : nat, x = INR k /\ k < r) -> newton3 n b x = Ok z -> z = Z.of_nat r.
Proof. intros ->. apply newton3_sound. Qed.
Lemma newton4_sound' r n b x z : b = (INR r * (INR r + 1) * (INR r + 2) * (INR r + 3))%R -> (1 <= INR r)%R ->
  (INR r <= x)%R \/ (exists k : nat, x = INR k /\ k < r) -> newton4 n b x = Ok z -> z = Z.of_nat r.
Proof. intros ->. apply newton4_sound. Qed.
Lemma rfrom3_sound r z : rfrom3 (opdim3 r) = Ok z -> z = Z.of_nat r.
Proof. intros H. unfold rfrom3 in H.
  assert (E6 : (6 * INR (opdim3 r) = INR r * (INR r + 1) * (INR r + 2))%R).
  { assert (K := f_equal INR (opdim3_6 r)). rewrite !mult_INR, !plus_INR in K.
    replace (INR 6) with 6%R in K by (simpl; ring). replace (INR 2) with 2%R in K by (simpl; ring).
    change (INR 1) with 1%R in K. lra. }
  apply (newton3_sound' r _ _ _ _ E6) in H; auto.
  destruct (Nat.lt_ge_cases (floor_root 3 (opdim3 r)) r) as [K|K]; [right; eauto|left; apply le_INR; auto]. Qed.
Lemma rfrom4_sound r z : 0 < r -> rfrom4 (opdim4 r) = Ok z -> z = Z.of_nat r.
Proof. intros Hr H. unfold rfrom4 in H.
  assert (E6 : (24 * INR (opdim4 r) = INR r * (INR r + 1) * (INR r + 2) * (INR r + 3))%R).
  { assert (K := f_equal INR (opdim4_24 r)). rewrite !mult_INR, !plus_INR in K.
    replace (INR 24) with 24%R in K by (simpl; ring). replace (INR 2) with 2%R in K by (simpl; ring).
    replace (INR 3) with 3%R in K by (simpl; ring). change (INR 1) with 1%R in K. lra. }
  apply (newton4_sound' r _ _ _ _ E6) in H; auto.
  - change 1%R with (INR 1). apply le_INR; lia.
  - destruct (Nat.lt_ge_cases (floor_root 4 (opdim4 r)) r) as [K|K]; [right; eauto|left; apply le_INR; auto]. Qed.

(* without any bound on r: a result, if one is returned, is the expansion for the right r *)
Lemma expand_never_wrong d junk r Hc H : ncols Hc = operator_dimension d r -> expand d junk Hc = Ok H ->
  H = map (erow_of d r (junk (r ^ deg d))) Hc.
Proof. intros E. destruct d; simpl in *.
  - unfold expand_entries2. rewrite E, rfrom2_ok. unfold opdim2. rewrite Nat.eqb_refl. simpl. congruence.
  - unfold expand_entries3. rewrite E. destruct (rfrom3 (opdim3 r)) as [z|e] eqn:Ez; [|discriminate].
    apply rfrom3_sound in Ez. subst z. destruct (negb _); [discriminate|]. rewrite Nat2Z.id. intros K; injection K as <-; reflexivity.
  - destruct (Nat.eq_dec r 0) as [->|H0].
    { intros K. assert (K2 := expand_ok Quartic junk 0 Hc). simpl in K2. rewrite K2 in K; auto; [injection K as <-; reflexivity|lra]. }
    unfold expand_entries4. rewrite E. destruct (rfrom4 (opdim4 r)) as [z|e] eqn:Ez; [|discriminate].
    apply rfrom4_sound in Ez; [|lia]. subst z. destruct (negb _); [discriminate|]. rewrite Nat2Z.id. intros K; injection K as <-; reflexivity. Qed.

Lemma expand_rejects d junk Hc : (forall r, ncols Hc <> operator_dimension d r) -> expand d junk Hc = Err ValueError.
Proof. intros H. destruct d; simpl in *.
  - unfold expand_entries2. destruct (Nat.eqb_spec (rfrom2 (ncols Hc) * (rfrom2 (ncols Hc) + 1) / 2) (ncols Hc)) as [K|K]; auto.
    exfalso. apply (H (rfrom2 (ncols Hc))). unfold opdim2. auto.
  - unfold expand_entries3. destruct (rfrom3 (ncols Hc)) as [z|e] eqn:Ez.
    + destruct (Z.eqb_spec (z * (z + 1) * (z + 2) / 6) (Z.of_nat (ncols Hc))) as [K|K]; auto. exfalso.
      destruct (Z_le_dec 0 z) as [Hz|Hz].
      * apply (H (Z.to_nat z)). apply Nat2Z.inj. rewrite <- K. unfold opdim3. rewrite Nat2Z.inj_div. f_equal. lia.
      * apply (H 0). unfold opdim3. simpl. destruct (Z_le_dec (-2) z).
        { assert (z = -1 \/ z = -2)%Z as [->| ->] by lia; clear - K; revert K; generalize (ncols Hc); intros n K; [replace (-1 * (-1 + 1) * (-1 + 2) / 6)%Z with 0%Z in K by reflexivity | replace (-2 * (-2 + 1) * (-2 + 2) / 6)%Z with 0%Z in K by reflexivity]; lia. }
        { exfalso. assert (z * (z + 1) * (z + 2) < 0)%Z by (replace (z * (z + 1) * (z + 2))%Z with (- (- z * ((- z - 1) * (- z - 2))))%Z by ring; assert (0 < (- z - 1) * (- z - 2))%Z by (apply Z.mul_pos_pos; lia); assert (0 < - z * ((- z - 1) * (- z - 2)))%Z by (apply Z.mul_pos_pos; lia); lia).
          assert (z * (z + 1) * (z + 2) / 6 < 0)%Z by (apply Z.div_lt_upper_bound; lia). lia. }
    + f_equal. apply (rfrom3_err _ _ Ez).
  - unfold expand_entries4. destruct (rfrom4 (ncols Hc)) as [z|e] eqn:Ez.
    + destruct (Z.eqb_spec (z * (z + 1) * (z + 2) * (z + 3) / 24) (Z.of_nat (ncols Hc))) as [K|K]; auto. exfalso.
      destruct (Z_le_dec 0 z) as [Hz|Hz].
      * apply (H (Z.to_nat z)). apply Nat2Z.inj. rewrite <- K. unfold opdim4. rewrite Nat2Z.inj_div. f_equal. lia.
      * destruct (Z_le_dec (-3) z).
        { apply (H 0). unfold opdim4. simpl. assert (z = -1 \/ z = -2 \/ z = -3)%Z as [->|[->| ->]] by lia; clear - K; revert K; generalize (ncols Hc); intros n K; match type of K with ?x = _ => replace x with 0%Z in K by reflexivity end; lia. }
        { apply (H (Z.to_nat (- z - 3))). apply Nat2Z.inj. rewrite <- K. unfold opdim4. rewrite Nat2Z.inj_div. f_equal.
          rewrite !Nat2Z.inj_mul, !Nat2Z.inj_add. rewrite !Z2Nat.id by lia. ring. }
    + f_equal. apply (rfrom4_err _ _ Ez). Qed.

Section Expand.
  Variables (d : degree) (junk : nat -> vec) (a r : nat) (Hc : mat).
  Hypothesis Hjunk : forall n, length (junk n) = n.
  Hypothesis Ha : 0 < a.
  Hypothesis HM : is_mat a (operator_dimension d r) Hc.

  Definition expands_well (H : mat) : Prop := is_mat a (r ^ deg d) H /\
    (forall q, is_vec r q -> matvec H (kron_power (deg d) q) = matvec Hc (ckron_of Rmult d q)) /\
    compress d H = Ok Hc /\
    (forall i s t, i < a -> In t (tuples (deg d) r) -> Permutation s t -> mget H i (pos r s) = mget H i (pos r t)).
  Lemma erow_expands_well : expands_well (map (erow_of d r (junk (r ^ deg d))) Hc).
  Proof. assert (Hn : ncols Hc = operator_dimension d r) by (apply (ncols_is_mat a); auto).
    destruct HM as [Hl HF]. rewrite operator_dimension_desc in HF. rewrite Forall_forall in HF.
    assert (HMat : is_mat a (r ^ deg d) (map (erow_of d r (junk (r ^ deg d))) Hc)).
    { split; [rewrite map_length; auto|]. apply Forall_map, Forall_forall. intros row _.
      rewrite erow_of_writes, writes_length. auto. }
    split; [auto|]. split; [|split].
    - intros q Hq. apply matvec_map_row. intros row Hr.
      rewrite erow_of_writes, ckron_of_mono, kron_power_mono, monomials_desc, Hq. apply expand_row_dot; auto.
    - rewrite (compress_ok d r) by (apply (ncols_is_mat a); auto). f_equal.
      rewrite map_map. rewrite <- (map_id Hc) at 2. apply map_ext_in. intros row Hr.
      rewrite crow_of_crow, erow_of_writes. apply crow_expand; auto.
    - intros i s t Hi Ht HP. unfold mget. rewrite !(nth_map_in _ Hc i nil nil) by lia.
      rewrite erow_of_writes. apply (expand_symmetric (deg d)); auto. Qed.
  Lemma expand_right_inverse : newton_guard d r -> exists H, expand d junk Hc = Ok H /\ expands_well H.
  Proof. intros Hg. eexists. split; [apply (expand_ok d junk r Hc Hg (ncols_is_mat a _ Hc HM Ha))|apply erow_expands_well]. Qed.
  Lemma expand_right_inverse' H : expand d junk Hc = Ok H -> expands_well H.
  Proof. intros E. apply (expand_never_wrong d junk r) in E; [subst H; apply erow_expands_well|].
    apply (ncols_is_mat a); auto. Qed.
End Expand.

Lemma expand_symmetrizes d junk a r H : (forall n, length (junk n) = n) -> 0 < a -> newton_guard d r ->
  is_mat a (r ^ deg d) H -> exists Hc Hs, compress d H = Ok Hc /\ expand d junk Hc = Ok Hs /\
    forall i t l, i < a -> In t (tuples (deg d) r) -> rearrangements t l ->
      mget Hs i (pos r t) = (lsum (map (fun s => mget H i (pos r s)) l) / INR (length l))%R.
Proof. intros Hj Ha Hg HM. destruct (compress_preserves d a r H Ha HM) as [Hc [E1 [HMc _]]].
  exists Hc, (map (erow_of d r (junk (r ^ deg d))) Hc). split; auto. split.
  - apply expand_ok; auto. apply (ncols_is_mat a); auto.
  - intros i t l Hi Ht [Hnd Hin]. rewrite (compress_ok d r) in E1 by (apply (ncols_is_mat a); auto).
    inversion E1; subst Hc; clear E1. destruct HM as [Hl HF].
    unfold mget at 1. rewrite map_map. rewrite !(nth_map_in _ H i nil nil) by lia.
    rewrite erow_of_writes, crow_of_crow. rewrite expand_crow_entry by auto.
    assert (Permutation (perm_set t) l) as HP.
    { apply NoDup_Permutation; auto using NoDup_perm_set. intros x. rewrite in_perm_set, Hin. tauto. }
    rewrite (Permutation_length HP). f_equal. apply lsum_Permutation, Permutation_map, HP. Qed.

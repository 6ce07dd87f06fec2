(* LiftDeriv.v -- the chain rule for the lifted time derivatives, and the quadratic lifter (C49). *)
From Verif Require Export LiftProofs.
#[local] Open Scope R_scope.

Lemma line_der x d : derivable_pt_lim (fun t => x + t * d) 0 d.
Proof.
  assert (H : derivable_pt_lim (fun t => x + t * d) 0 (0 + (1 * d + 0 * 0))).
  { apply derivable_pt_lim_plus; [apply derivable_pt_lim_const|]. apply (derivable_pt_lim_mult (fun t => t) (fun _ => d)); [apply derivable_pt_lim_id|apply derivable_pt_lim_const]. }
  replace (0 + (1 * d + 0 * 0)) with d in H by ring. exact H.
Qed.
Lemma chain (f : R -> R) x d l : derivable_pt_lim f x l -> derivable_pt_lim (fun t => f (x + t * d)) 0 (l * d).
Proof.
  intros H. apply (derivable_pt_lim_comp (fun t => x + t * d) f); [apply line_der|]. now rewrite Rmult_0_l, Rplus_0_r.
Qed.
(* near 0 the line keeps the sign of x *)
Lemma near_sign x d : x <> 0 -> exists delta, 0 < delta /\ forall t, Rabs t < delta -> Rabs (t * d) < Rabs x.
Proof.
  intros H. assert (P : 0 < Rabs x) by now apply Rabs_pos_lt. exists (Rabs x / (Rabs d + 1)). assert (Q : 0 <= Rabs d) by apply Rabs_pos. split.
  - apply Rdiv_lt_0_compat; lra.
  - intros t Ht. rewrite Rabs_mult. apply Rmult_lt_compat_r with (r := Rabs d + 1) in Ht; [|lra].
    replace (Rabs x / (Rabs d + 1) * (Rabs d + 1)) with (Rabs x) in Ht by (field; lra). pose proof (Rabs_pos t). nra.
Qed.
Lemma near_pos x d : 0 < x -> exists delta, 0 < delta /\ forall t, Rabs t < delta -> 0 < x + t * d.
Proof.
  intros H. destruct (near_sign x d ltac:(lra)) as (delta & Hd & K). exists delta. split; auto. intros t Ht. specialize (K t Ht).
  rewrite (Rabs_right x) in K by lra. apply Rabs_def2 in K. lra.
Qed.
Lemma near_neg x d : x < 0 -> exists delta, 0 < delta /\ forall t, Rabs t < delta -> x + t * d < 0.
Proof.
  intros H. destruct (near_sign x d ltac:(lra)) as (delta & Hd & K). exists delta. split; auto. intros t Ht. specialize (K t Ht).
  rewrite (Rabs_left x) in K by lra. apply Rabs_def2 in K. lra.
Qed.
Lemma power_entry p x d : smooth p x -> exists v, nmult (nmult (F p) (npow (F x) (p - 1))) (F d) = F v /\ derivative_at_0 (fun t => npow (F (x + t * d)) p) v.
Proof.
  intros [H|[[H [z ->]]|[-> [n ->]]]].
  - exists (p * Rpower x (p - 1) * d). split; [rewrite npow_pos by auto; reflexivity|]. destruct (near_pos x d H) as (delta & Hd & K).
    exists (fun t => Rpower (x + t * d) p), delta. split; auto. split; [intros t Ht; apply npow_pos; auto|]. apply (chain (fun y => Rpower y p)). now apply derivable_pt_lim_power.
  - rewrite <- minus_IZR, npow_neg by auto. eexists. split; [reflexivity|]. destruct (near_neg x d H) as (delta & Hd & K).
    exists (fun t => (if Z.odd z then -1 else 1) * Rpower (- x + t * (- d)) (IZR z)), delta. split; auto. split.
    + intros t Ht. rewrite npow_neg by auto. f_equal. replace (- (x + t * d)) with (- x + t * - d) by ring. destruct (Z.odd z); ring.
    + replace (IZR z * (if Z.odd (z - 1) then - Rpower (- x) (IZR (z - 1)) else Rpower (- x) (IZR (z - 1))) * d)
        with ((if Z.odd z then -1 else 1) * (IZR z * Rpower (- x) (IZR z - 1) * - d)).
      * apply (derivable_pt_lim_scal (fun t => Rpower (- x + t * - d) (IZR z))). apply (chain (fun y => Rpower y (IZR z))). apply derivable_pt_lim_power. lra.
      * rewrite <- minus_IZR. replace (Z.odd (z - 1)) with (negb (Z.odd z)); [destruct (Z.odd z); cbn; ring|]. now rewrite Z.odd_sub, xorb_true_r.
  - replace (INR (S n) - 1) with (INR n) by (rewrite S_INR; ring). rewrite npow_nat. exists (INR (S n) * 0 ^ n * d). split; [reflexivity|].
    exists (fun t => (0 + t * d) ^ S n), 1. split; [lra|]. split; [intros; apply npow_nat|]. apply (chain (fun y => y ^ S n)). apply (derivable_pt_lim_pow 0 (S n)).
Qed.
Lemma aline_facts Q D t : same_shape Q D -> proper (aline Q D t) /\ arows (aline Q D t) = arows Q /\ acols (aline Q D t) = acols Q /\
  forall i j, (i < arows Q)%nat -> (j < acols Q)%nat -> aget (aline Q D t) i j = aget Q i j + t * aget D i j.
Proof.
  destruct Q as [q|q], D as [d|d]; cbn [same_shape aline]; try contradiction.
  - intros [H1 H2]. cbn [proper arows acols aget]. rewrite map_length, seq_length. split; auto. split; auto. split; auto. intros i j Hi _.
    unfold vget at 1. rewrite (nth_map_in _ (seq 0 (length q)) i 0 0%nat) by now rewrite seq_length. now rewrite seq_nth.
  - intros (n & k & Hn & HQ & HD). unfold nrows. rewrite (is_mat_len n k q HQ), (ncols_is_mat n k q HQ Hn). cbn [proper arows acols aget].
    assert (HA : is_mat n k (map (fun i => map (fun j => mget q i j + t * mget d i j) (seq 0 k)) (seq 0 n))).
    { split; [now rewrite map_length, seq_length|]. apply Forall_forall. intros r Hr. apply in_map_iff in Hr. destruct Hr as (i & <- & _). now rewrite map_length, seq_length. }
    split; [exists n, k; auto|]. unfold nrows. rewrite (is_mat_len n k _ HA), (is_mat_len n k q HQ), (ncols_is_mat n k _ HA Hn), (ncols_is_mat n k q HQ Hn). split; auto. split; auto. intros i j Hi Hj.
    unfold mget at 1. rewrite (nth_map_in _ (seq 0 n) i [] 0%nat) by now rewrite seq_length. rewrite seq_nth by auto. cbn [Nat.add].
    rewrite (nth_map_in _ (seq 0 k) j 0 0%nat) by now rewrite seq_length. now rewrite seq_nth.
Qed.
Lemma derivative_ext g g' v : (forall t, g t = g' t) -> derivative_at_0 g v -> derivative_at_0 g' v.
Proof. intros E (f & delta & Hd & Hf & HD). exists f, delta. split; auto. split; auto. intros t Ht. rewrite <- E. auto. Qed.

(* the entries of the lifted state along the line Q + t D *)
Definition lifted_entry (lift : arr -> res narr) (Q D : arr) (i j : nat) (t : R) : fnum :=
  match lift (aline Q D t) with Ok L => nget L i j | Err _ => NaN end.
Lemma poly_chain_rule orders Q D : same_shape Q D -> orders <> [] ->
  exists D', poly_lift_ddts orders Q D = Ok D' /\ nrows_n D' = (length orders * arows Q)%nat /\
  forall a i j, (a < length orders)%nat -> (i < arows Q)%nat -> (j < acols Q)%nat -> smooth (nth a orders 0) (aget Q i j) ->
    exists v, nget D' (a * arows Q + i) j = F v /\
      derivative_at_0 (fun t => match poly_lift orders (aline Q D t) with Ok L => nget L (a * arows Q + i) j | Err _ => NaN end) v.
Proof.
  intros HS Ho. rewrite poly_lift_ddts_ok by auto. eexists. split; [reflexivity|]. split.
  - destruct Q as [v|m]; cbn [blockarr nrows_n arows].
    + rewrite (concat_length_uniform (length v)); [now rewrite map_length|]. intros l Hl. apply in_map_iff in Hl. destruct Hl as (p & <- & _). now rewrite map_length, seq_length.
    + rewrite (concat_length_uniform (nrows m)); [now rewrite map_length|]. intros l Hl. apply in_map_iff in Hl. destruct Hl as (p & <- & _). now rewrite map_length, seq_length.
  - intros a i j Ha Hi Hj HSm. rewrite blockarr_get by auto. destruct (power_entry (nth a orders 0) (aget Q i j) (aget D i j) HSm) as (v & E & HD).
    exists v. split; auto. revert HD. apply derivative_ext. intros t. destruct (aline_facts Q D t HS) as (HP & E1 & E2 & E3).
    destruct (poly_lift orders (aline Q D t)) as [L|e] eqn:EL.
    + rewrite <- E1. rewrite (poly_lift_entry orders _ L a i j HP EL); rewrite ?E1, ?E2; auto. now rewrite E3.
    + exfalso. destruct (poly_lift_defined orders (aline Q D t) HP Ho) as (L & K & _). congruence.
Qed.

(* ---- QuadraticLifter ---- *)
Lemma quad_is_poly Q : proper Q -> quad_lift Q = poly_lift [1; 2] Q.
Proof.
  intros HQ. unfold quad_lift, poly_lift. cbn [map nconcat bind]. f_equal. rewrite (nmap_block Q) by auto. rewrite finite_block by auto. apply oneblock_eq. intros. now rewrite npow_1.
Qed.
Lemma quad_unlift_is_poly L : quad_unlift L = poly_unlift [1; 2] L.
Proof.
  unfold quad_unlift, poly_unlift. cbn [length index1]. destruct (Req_EM_T 1 1); [|congruence]. destruct (nsplit 2 L) as [vs|]; cbn [bind]; auto. destruct vs; reflexivity.
Qed.
Lemma quad_unlift_lift Q : proper Q -> exists L, quad_lift Q = Ok L /\ nrows_n L = (2 * arows Q)%nat /\ quad_unlift L = Ok (finite Q).
Proof.
  intros HQ. destruct (poly_lift_defined [1; 2] Q HQ ltac:(discriminate)) as (L & E & EN). exists L. rewrite quad_is_poly by auto. split; auto. split; auto.
  rewrite quad_unlift_is_poly. apply (poly_unlift_lift [1; 2] Q L); auto; [discriminate|]. left. left. auto.
Qed.
Lemma quad_lift_entry Q L i j : proper Q -> quad_lift Q = Ok L -> (i < arows Q)%nat -> (j < acols Q)%nat ->
  nget L i j = F (aget Q i j) /\ nget L (arows Q + i) j = F (aget Q i j * aget Q i j).
Proof.
  intros HQ E Hi Hj. rewrite quad_is_poly in E by auto. split.
  - pose proof (poly_lift_entry [1; 2] Q L 0 i j HQ E ltac:(cbn; lia) Hi Hj) as H. cbn [Nat.mul Nat.add nth] in H. now rewrite npow_1 in H.
  - pose proof (poly_lift_entry [1; 2] Q L 1 i j HQ E ltac:(cbn; lia) Hi Hj) as H. cbn [Nat.mul Nat.add nth] in H. rewrite Nat.add_0_r, npow_2 in H. exact H.
Qed.
Lemma quad_ddts_is_poly Q D : same_shape Q D -> quad_lift_ddts Q D = poly_lift_ddts [1; 2] Q D.
Proof.
  intros HS. rewrite poly_lift_ddts_ok by (auto; discriminate). destruct (same_proper Q D HS) as (HQ & HD & E1 & E2 & EB).
  rewrite <- nconcat_blocks by (auto; discriminate). cbn [map nconcat bind]. unfold quad_lift_ddts. rewrite (nmap_block Q), (finite_block D) by auto. rewrite EB, nmap2_oneblock by auto. cbn [bind].
  f_equal; apply oneblock_eq; intros i j _ _.
  - replace (1 - 1) with 0 by ring. rewrite npow_0. cbn. f_equal. ring.
  - replace (2 - 1) with 1 by ring. now rewrite npow_1.
Qed.
Lemma smooth_nat n x : smooth (INR (S n)) x.
Proof.
  destruct (Rtotal_order x 0) as [H|[->|H]]; [right; left|right; right|left; auto]; split; auto.
  - exists (Z.of_nat (S n)). apply INR_IZR_INZ.
  - exists n. reflexivity.
Qed.
Lemma quad_chain_rule Q D : same_shape Q D -> exists D', quad_lift_ddts Q D = Ok D' /\ nrows_n D' = (2 * arows Q)%nat /\
  forall i j, (i < 2 * arows Q)%nat -> (j < acols Q)%nat ->
    exists v, nget D' i j = F v /\ derivative_at_0 (fun t => match quad_lift (aline Q D t) with Ok L => nget L i j | Err _ => NaN end) v.
Proof.
  intros HS. destruct (poly_chain_rule [1; 2] Q D HS ltac:(discriminate)) as (D' & E & EN & H). exists D'. rewrite quad_ddts_is_poly by auto. split; auto. split; auto.
  assert (S1 : forall a x, (a < 2)%nat -> smooth (nth a [1; 2] 0) x).
  { intros a x Ha. destruct a as [|[|a]]; [| |lia]; cbn [nth]; [change 1 with (INR 1)|change 2 with (INR 2)]; apply smooth_nat. }
  assert (EQ : forall t, quad_lift (aline Q D t) = poly_lift [1; 2] (aline Q D t)) by (intros t; apply quad_is_poly; apply aline_facts; auto).
  intros i j Hi Hj. destruct (lt_dec i (arows Q)) as [Hl|Hl].
  - destruct (H 0%nat i j ltac:(cbn; lia) Hl Hj (S1 0%nat _ ltac:(lia))) as (v & Ev & Hv). cbn [Nat.mul Nat.add] in *. exists v. split; auto. revert Hv. apply derivative_ext. intros t. now rewrite EQ.
  - destruct (H 1%nat (i - arows Q)%nat j ltac:(cbn; lia) ltac:(lia) Hj (S1 1%nat _ ltac:(lia))) as (v & Ev & Hv).
    assert (E1 : (1 * arows Q + (i - arows Q) = i)%nat) by lia. rewrite E1 in Ev, Hv. exists v. split; auto. revert Hv. apply derivative_ext. intros t. now rewrite EQ.
Qed.

(* ---- the general rule for natural orders: every state is smooth, so every entry is a derivative ---- *)
Lemma poly_chain_rule_nat orders Q D : same_shape Q D -> orders <> [] -> (forall p, In p orders -> exists n, p = INR (S n)) ->
  exists D', poly_lift_ddts orders Q D = Ok D' /\
  forall a i j, (a < length orders)%nat -> (i < arows Q)%nat -> (j < acols Q)%nat ->
    exists v, nget D' (a * arows Q + i) j = F v /\
      derivative_at_0 (fun t => match poly_lift orders (aline Q D t) with Ok L => nget L (a * arows Q + i) j | Err _ => NaN end) v.
Proof.
  intros HS Ho HN. destruct (poly_chain_rule orders Q D HS Ho) as (D' & E & _ & H). exists D'. split; auto. intros a i j Ha Hi Hj. apply H; auto.
  destruct (HN (nth a orders 0) ltac:(apply nth_In; auto)) as (n & ->). apply smooth_nat.
Qed.
(* ---- refutations ---- *)
Lemma even_orders_forget_signs : exists Q L, proper Q /\ poly_lift [2] Q = Ok L /\ poly_unlift [2] L = Ok (NV [F 1]) /\ finite Q = NV [F (-1)].
Proof.
  exists (V [-1]). eexists. split; [cbn; lia|]. split; [reflexivity|]. split; [|reflexivity].
  change ((match index1 [2] with Some i => match nth_error [NV [npow (F (-1)) 2]] i with Some v => Ok v | None => Err IndexError end | None => first_root [NV [npow (F (-1)) 2]] [2] end) = Ok (NV [F 1])).
  cbn [index1]. destruct (Req_EM_T 2 1); [lra|]. cbn [first_root]. destruct (Req_EM_T 2 0); [lra|]. rewrite npow_2. cbn [nmap map]. rewrite npow_pos by lra.
  replace (-1 * -1) with 1 by ring. do 4 f_equal. unfold Rpower. rewrite ln_1, Rmult_0_r. apply exp_0.
Qed.
Lemma is_int_third : is_int (1 / 3) = false.
Proof.
  apply not_true_iff_false. intros K. apply is_int_ok in K. destruct K as [w E]. assert (H : 3 * IZR w = 1) by (rewrite <- E; field). change 3 with (IZR 3) in H. rewrite <- mult_IZR in H. apply eq_IZR in H. lia.
Qed.
Lemma odd_orders_give_nan : exists Q L, proper Q /\ poly_lift [3] Q = Ok L /\ poly_unlift [3] L = Ok (NV [NaN]).
Proof.
  exists (V [-1]). eexists. split; [cbn; lia|]. split; [reflexivity|].
  change ((match index1 [3] with Some i => match nth_error [NV [npow (F (-1)) 3]] i with Some v => Ok v | None => Err IndexError end | None => first_root [NV [npow (F (-1)) 3]] [3] end) = Ok (NV [NaN])).
  cbn [index1]. destruct (Req_EM_T 3 1); [lra|]. cbn [first_root]. destruct (Req_EM_T 3 0); [lra|].
  replace 3 with (INR 3) at 1 by (cbn; lra). rewrite npow_nat. cbn [nmap map]. rewrite npow_neg_nan; [reflexivity| |apply is_int_third]. cbn. lra.
Qed.
Lemma order_zero_nan : exists Q D D', same_shape Q D /\ poly_lift_ddts [0] Q D = Ok D' /\ nget D' 0 0 = NaN /\
  derivative_at_0 (fun t => match poly_lift [0] (aline Q D t) with Ok L => nget L 0 0 | Err _ => NaN end) 0.
Proof.
  exists (V [0]), (V [1]). eexists. split; [cbn; lia|]. split; [reflexivity|]. split.
  - change (nmult (nmult (F 0) (npow (F 0) (0 - 1))) (F 1) = NaN). rewrite npow_zero_neg by lra. cbn. unfold sgn. destruct (Rlt_dec 0 0); [lra|reflexivity].
  - exists (fun _ => 1), 1. split; [lra|]. split; [|apply derivable_pt_lim_const]. intros t _. cbn. now rewrite npow_0.
Qed.
Lemma half_becomes_zero : set_orders (Number (1 / 2)) = Ok [0].
Proof.
  cbn. unfold trunc. destruct (Rle_dec 0 (1 / 2)); [|lra]. do 2 f_equal. replace 0 with (IZR 0) by reflexivity. f_equal.
  destruct (base_Int_part (1 / 2)) as [H1 H2]. assert (K1 : (Int_part (1 / 2) < 1)%Z) by (apply lt_IZR; lra). assert (K2 : (-1 < Int_part (1 / 2))%Z) by (apply lt_IZR; lra). lia.
Qed.
(* ---- the orders setter ---- *)
Lemma set_orders_ok a : match a with
  | NotIterable => set_orders a = Err TypeError
  | Number x => exists z, set_orders a = Ok [IZR z] /\ Rabs (IZR z) <= Rabs x /\ Rabs (x - IZR z) < 1
  | Sequence l => (forall v, set_orders a = Ok v <-> l = map Num v) /\ (set_orders a = Err TypeError <-> In NotNum l)
  end.
Proof.
  destruct a as [x|l|]; cbn [set_orders]; auto.
  - unfold trunc. destruct (Rle_dec 0 x) as [H|H].
    + exists (Int_part x). split; auto. destruct (base_Int_part x) as [H1 H2].
      assert (K : (-1 < Int_part x)%Z) by (apply lt_IZR; lra). assert (K' : 0 <= IZR (Int_part x)) by (apply IZR_le; lia). rewrite !Rabs_right by lra. split; lra.
    + exists (- Int_part (- x))%Z. rewrite opp_IZR. split; auto. destruct (base_Int_part (- x)) as [H1 H2].
      assert (K : (-1 < Int_part (- x))%Z) by (apply lt_IZR; lra). assert (K' : 0 <= IZR (Int_part (- x))) by (apply IZR_le; lia).
      rewrite Rabs_Ropp, Rabs_right, (Rabs_left x) by lra. split; [lra|]. apply Rabs_def1; lra.
  - induction l as [|i l [IH1 IH2]]; cbn [mapM].
    + split; [intros v; split|split].
      * intros [= <-]. reflexivity.
      * destruct v; [auto|discriminate].
      * discriminate.
      * intros [].
    + destruct i as [x|]; cbn [bind].
      * destruct (mapM _ l) as [w|e] eqn:E; cbn [bind].
        -- split; [intros v; split|split].
           ++ intros [= <-]. cbn. f_equal. now apply IH1.
           ++ destruct v as [|y v]; [discriminate|]. cbn. intros [= -> H]. apply IH1 in H. congruence.
           ++ discriminate.
           ++ intros [H|H]; [discriminate|]. apply IH2 in H. discriminate.
        -- split; [intros v; split|split].
           ++ discriminate.
           ++ destruct v as [|y v]; [discriminate|]. cbn. intros [= -> H]. apply IH1 in H. discriminate.
           ++ intros H. right. apply IH2. congruence.
           ++ intros [H|H]; [discriminate|]. now apply IH2.
      * split; [intros v; split|split].
        -- discriminate.
        -- destruct v; discriminate.
        -- intros _. left. reflexivity.
        -- reflexivity.
Qed.
Lemma empty_orders Q L : poly_lift [] Q = Err ValueError /\ poly_unlift [] L = Err ZeroDivisionError.
Proof. split; reflexivity. Qed.

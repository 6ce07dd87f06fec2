(* PolyOpProofs.v -- lemmas about PolyOpModel.v *)
From Verif Require Import LinAlg MatAlg SpecOps TupleLemmas TupleProofs TupleFinal OpsProofs.
From Verif Require Export PolyOpModel.
#[local] Open Scope nat_scope.

Lemma comb_0_r n : comb n 0 = 1. Proof. destruct n; reflexivity. Qed.
Lemma comb_over n : forall k, n < k -> comb n k = 0.
Proof. induction n as [|n IH]; intros [|k] H; try lia; cbn; auto. rewrite !IH by lia. reflexivity. Qed.

Lemma pdim_desc p : forall r, pdim (S p) r = length (desc (S p) r).
Proof. induction p as [|p IHp].
  - intros r. rewrite desc1_length. cbn [pdim]. replace (r + 1 - 1) with r by lia.
    induction r; [reflexivity|]. cbn [comb]. rewrite comb_0_r, IHr. reflexivity.
  - induction r as [|r IHr].
    + rewrite desc_length_0. cbn [pdim]. apply comb_over. lia.
    + rewrite desc_length_S, <- IHr, <- IHp. cbn [pdim].
      replace (S r + S (S p) - 1) with (S (r + S (S p) - 1)) by lia.
      replace (S r + S p - 1) with (r + S (S p) - 1) by lia. cbn [comb]. lia. Qed.

Lemma pdim_desc' p r : 0 < r -> pdim p r = length (desc p r).
Proof. intros Hr. destruct p; [|apply pdim_desc]. destruct r; [lia|reflexivity]. Qed.

Lemma pdim_monomials p r : 0 < r -> pdim p r = length (monomials p r).
Proof. intros. rewrite monomials_desc. apply pdim_desc'; auto. Qed.

Lemma firstn_seq n a k : firstn n (seq a k) = seq a (Nat.min n k).
Proof. revert a k. induction n as [|n IH]; intros a [|k]; cbn; auto. rewrite IH. reflexivity. Qed.

Lemma desc_length_mono p i r : i < r -> length (desc p (S i)) <= length (desc p r).
Proof. intros H. rewrite <- (desc_prefix p r i H). rewrite firstn_length. lia. Qed.

Lemma nth_flat_block {A} (f : A -> list A -> list A) (x y : list A) d n i c :
  (forall a, length (f a y) = n) -> i < length x -> c < n ->
  nth (i * n + c) (flat_map (fun a => f a y) x) d = nth c (f (nth i x d) y) d.
Proof. intros Hf. revert i. induction x as [|a x IH]; intros i Hi Hc; [simpl in Hi; lia|]. cbn [flat_map].
  destruct i.
  - rewrite app_nth1 by (rewrite Hf; lia). reflexivity.
  - rewrite app_nth2 by (rewrite Hf; simpl; lia). rewrite Hf. replace (S i * n + c - n) with (i * n + c) by (simpl; lia).
    apply IH; simpl in Hi; lia. Qed.

Lemma flat_map_length_const {A B} (f : A -> list B) n l : (forall a, length (f a) = n) -> length (flat_map f l) = length l * n.
Proof. intros H. induction l; cbn; auto. rewrite app_length, H, IHl. reflexivity. Qed.

Lemma flat_map_length_ext {A B C} (f : A -> list B) (g : A -> list C) l :
  (forall a, In a l -> length (f a) = length (g a)) -> length (flat_map f l) = length (flat_map g l).
Proof. intros H. induction l; cbn; auto. rewrite !app_length, H by (left; auto). rewrite IHl; auto. intros. apply H. right; auto. Qed.

Lemma forallb_flat_map {A B} (P : B -> bool) (f : A -> list B) l :
  (forall a, In a l -> forallb P (f a) = true) -> forallb P (flat_map f l) = true.
Proof. intros H. induction l; cbn; auto. rewrite forallb_app. rewrite H by (left; auto). apply IHl. intros. apply H. right; auto. Qed.

(* one step of exp_p: the kept entries of x (x) y *)
Lemma exp_step {A} (mul : A -> A -> A) d (x y : list A) p : 0 < length x ->
  length y = length (desc p (length x)) ->
  fancy d (flat_map (fun a => map (mul a) y) x) (kept (length x) (S p)) =
  Ok (flat_map (fun i => map (mul (nth i x d)) (firstn (length (desc p (S i))) y)) (seq 0 (length x))).
Proof. intros Hx Hy. set (r := length x) in *. unfold fancy.
  assert (HL : forall a, length (map (mul a) y) = length (desc p r)) by (intros; rewrite map_length; auto).
  rewrite (flat_map_length_const _ _ _ HL).
  assert (EK : kept r (S p) = flat_map (fun i => seq (i * length (desc p r)) (length (desc p (S i)))) (seq 0 r)).
  { cbn [kept]. rewrite pdim_desc' by auto. apply flat_map_ext_in. intros i Hi. apply in_seq in Hi.
    rewrite pdim_desc' by lia. rewrite Nat.add_1_r, firstn_seq. rewrite Nat.min_l; auto. apply desc_length_mono. lia. }
  rewrite EK. rewrite forallb_flat_map.
  - f_equal. rewrite map_flat_map. apply flat_map_ext_in. intros i Hi. apply in_seq in Hi.
    pose proof (desc_length_mono p i r ltac:(lia)) as Hle.
    apply (list_ext d).
    + rewrite !map_length, seq_length, firstn_length. lia.
    + intros c Hc. rewrite map_length, seq_length in Hc.
      rewrite (nth_map_in _ _ _ _ 0) by (rewrite seq_length; auto). rewrite seq_nth by auto.
      rewrite (nth_flat_block (fun a y => map (mul a) y) x y d (length (desc p r)) i c) by (auto; unfold r in *; lia).
      rewrite !(nth_map_in _ _ _ _ d) by (rewrite ?firstn_length; lia).
      f_equal. rewrite <- (firstn_skipn (length (desc p (S i))) y) at 1. rewrite app_nth1; auto. rewrite firstn_length. lia.
  - intros i Hi. apply in_seq in Hi. apply forallb_forall. intros c Hc. apply in_seq in Hc. apply Nat.ltb_lt.
    pose proof (desc_length_mono p i r ltac:(lia)). unfold r in *. nia. Qed.

Lemma exp_p_mono p q : q <> [] -> exp_p Rmult 0%R q (S p) = Ok (map (mono q) (monomials (S p) (length q))).
Proof. intros Hq. assert (Hl : 0 < length q) by (destruct q; [tauto|simpl; lia]). induction p as [|p IH].
  - cbn [exp_p]. f_equal. rewrite monomials_desc, desc_1, map_map.
    rewrite (vec_tab (length q) q eq_refl) at 1. apply map_ext. intros i. unfold mono, lprod. cbn. ring.
  - change (exp_p Rmult 0%R q (S (S p))) with (match exp_p Rmult 0%R q (S p) with Err e => Err e
      | Ok y => fancy 0%R (flat_map (fun a => map (Rmult a) y) q) (kept (length q) (S (S p))) end).
    rewrite IH, exp_step; auto.
    2:{ rewrite map_length, monomials_desc. reflexivity. }
    f_equal. rewrite !monomials_desc.
    change (desc (S (S p)) (length q)) with (flat_map (fun i => map (cons i) (desc (S p) (S i))) (seq 0 (length q))).
    rewrite map_flat_map. apply flat_map_ext_in. intros i Hi. apply in_seq in Hi.
    rewrite firstn_map, desc_prefix by lia. rewrite !map_map. apply map_ext. intros t. unfold mono. reflexivity. Qed.

(* homomorphisms carry exp_p over *)
Lemma exp_p_hom {A B} (P : A -> Prop) (mulA : A -> A -> A) (mulB : B -> B -> B) dA dB (h : A -> B) x :
  (forall a b, P a -> P b -> P (mulA a b) /\ h (mulA a b) = mulB (h a) (h b)) -> Forall P x -> x <> [] ->
  forall p, exists y, exp_p mulA dA x (S p) = Ok y /\ exp_p mulB dB (map h x) (S p) = Ok (map h y) /\ Forall P y /\
    length y = length (desc (S p) (length x)).
Proof. intros Hm HP Hx. assert (Hl : 0 < length x) by (destruct x; [tauto|simpl; lia]). induction p as [|p [y [E1 [E2 [HPy Hy]]]]].
  - exists x. cbn [exp_p]. rewrite desc1_length. auto.
  - change (exp_p mulA dA x (S (S p))) with (match exp_p mulA dA x (S p) with Err e => Err e
      | Ok y => fancy dA (flat_map (fun a => map (mulA a) y) x) (kept (length x) (S (S p))) end).
    change (exp_p mulB dB (map h x) (S (S p))) with (match exp_p mulB dB (map h x) (S p) with Err e => Err e
      | Ok y => fancy dB (flat_map (fun a => map (mulB a) y) (map h x)) (kept (length (map h x)) (S (S p))) end).
    rewrite E1, E2, !exp_step by (rewrite ?map_length; auto). eexists. split; [reflexivity|].
    rewrite Forall_forall in HP. rewrite Forall_forall in HPy. rewrite map_length. repeat split.
    + f_equal. rewrite map_flat_map. apply flat_map_ext_in. intros i Hi. apply in_seq in Hi. rewrite firstn_map, !map_map.
      apply map_ext_in. intros b Hb. symmetry. rewrite (nth_map_in h x i dB dA) by lia. apply Hm.
      * apply HP. apply nth_In; lia.
      * apply HPy. rewrite <- (firstn_skipn (length (desc (S p) (S i))) y). apply in_or_app; auto.
    + apply Forall_forall. intros z Hz. apply in_flat_map in Hz. destruct Hz as [i [Hi Hz]]. apply in_seq in Hi.
      apply in_map_iff in Hz. destruct Hz as [b [<- Hb]]. apply Hm.
      * apply HP. apply nth_In; lia.
      * apply HPy. rewrite <- (firstn_skipn (length (desc (S p) (S i))) y). apply in_or_app; auto.
    + change (desc (S (S p)) (length x)) with (flat_map (fun i => map (cons i) (desc (S p) (S i))) (seq 0 (length x))).
      apply flat_map_length_ext. intros i Hi. apply in_seq in Hi.
      rewrite !map_length, firstn_length. pose proof (desc_length_mono (S p) i (length x) ltac:(lia)). lia. Qed.

Lemma deg_S d : exists p, deg d = S (S p). Proof. destruct d; simpl; eauto. Qed.

(* matrices of states: column j is exp_p of column j *)
Lemma exp_p_cols p r k Q : 0 < r -> is_mat r k Q -> exists D, exp_p vmul [] Q (S p) = Ok D /\
  is_mat (pdim (S p) r) k D /\
  forall j, j < k -> colv (pdim (S p) r) D j = map (mono (colv r Q j)) (monomials (S p) r).
Proof. intros Hr HQ. pose proof HQ as [Hl HF].
  assert (Hn : Q <> []) by (intros ->; simpl in Hl; lia).
  assert (K : forall j, j < k -> exists D, exp_p vmul [] Q (S p) = Ok D /\
     exp_p Rmult 0%R (map (fun row => vget row j) Q) (S p) = Ok (map (fun row => vget row j) D) /\
     Forall (is_vec k) D /\ length D = length (desc (S p) (length Q))).
  { intros j Hj. apply (exp_p_hom (is_vec k) vmul Rmult [] 0%R (fun row => vget row j) Q); auto.
    intros a b Ha Hb. split; [apply is_vec_vmul; auto|]. apply (vget_vmul k); auto. }
  assert (K0 : exists D, exp_p vmul [] Q (S p) = Ok D /\ Forall (is_vec k) D /\ length D = length (desc (S p) (length Q))).
  { destruct (exp_p_hom (is_vec k) vmul (fun _ _ => tt) [] tt (fun _ => tt) Q) with (p := p) as [D [E1 [_ [E2 E3]]]]; eauto.
    intros a b Ha Hb. split; [apply is_vec_vmul; auto|auto]. }
  destruct K0 as [D [ED [HD HlD]]]. exists D. split; auto. rewrite Hl in HlD.
  assert (HM : is_mat (pdim (S p) r) k D) by (split; [rewrite pdim_desc; auto|exact HD]).
  split; auto. intros j Hj. rewrite (colv_eq_map _ k D) by auto. destruct (K j Hj) as [D' [E1 [E2 _]]].
  rewrite ED in E1. injection E1 as <-. rewrite <- (colv_eq_map r k Q j) in E2 by auto.
  rewrite exp_p_mono in E2.
  - injection E2 as E2. rewrite <- E2. rewrite (is_vec_colv r Q j). reflexivity.
  - intros K'. pose proof (is_vec_colv r Q j) as K2. rewrite K' in K2. unfold is_vec in K2. simpl in K2. lia. Qed.

Lemma pdatablock_ok p r k Q : 0 < r -> is_mat r k Q -> exists D, pdatablock p (M Q) = Ok D /\ is_mat (pdim p r) k D /\
  forall j, j < k -> colv (pdim p r) D j = map (mono (colv r Q j)) (monomials p r).
Proof. intros Hr HQ. destruct p as [|p].
  - eexists. split; [reflexivity|]. cbn [lastdim]. rewrite (ncols_is_mat r k) by auto. split.
    + split; auto. constructor; auto. apply repeat_length.
    + intros j Hj. cbn. unfold mget. cbn. change (nth j (repeat 1%R k) 0%R) with (vget (repeat 1%R k) j).
      rewrite repeat_vget by auto. reflexivity.
  - destruct (exp_p_cols p r k Q Hr HQ) as [D [E H]]. exists D. split; auto. cbn [pdatablock atleast_2d].
    destruct Q; auto. destruct HQ; simpl in *; lia. Qed.

(* the class for a given order among the dedicated ones *)
Definition as_op (p : nat) (E : mat) : option op :=
  match p with
  | 0 => Some (OConst (map (fun row => nth 0 row 0%R) E))
  | 1 => Some (OLin E)
  | 2 => Some (OPoly Quadratic E) | 3 => Some (OPoly Cubic E) | 4 => Some (OPoly Quartic E)
  | _ => None
  end.

Lemma pdim_opdim d r : pdim (deg d) r = operator_dimension d r.
Proof. rewrite operator_dimension_desc. destruct (deg_S d) as [p ->]. apply pdim_desc. Qed.

Lemma papply_vec p r E q : 0 < r -> is_mat r (pdim p r) E -> is_vec r q ->
  papply p E (V q) = Ok (V (matvec E (map (mono q) (monomials p r)))).
Proof. intros Hr HE Hq. unfold papply. rewrite (is_mat_nrows _ _ _ HE), Hq, Nat.eqb_refl. cbn [negb].
  assert (Hn : q <> []) by (intros ->; unfold is_vec in Hq; simpl in Hq; lia).
  assert (HM : is_vec (pdim p r) (map (mono q) (monomials p r))).
  { unfold is_vec. rewrite map_length, pdim_monomials; auto. }
  destruct p as [|[|p]].
  - do 2 f_equal. unfold matvec. apply map_ext_in. intros row Hrow. destruct HE as [_ HF]. rewrite Forall_forall in HF.
    specialize (HF _ Hrow). cbn in HF. rewrite (vec_1 row) by auto. cbn. unfold mono, lprod. cbn. ring.
  - cbn [matdot]. pose proof (exp_p_mono 0 q Hn) as K. cbn [exp_p] in K. injection K as K. rewrite Hq in K.
    rewrite <- K in HM |- *. rewrite (matvec_r_ok r (pdim 1 r)); auto.
  - rewrite exp_p_mono by auto. rewrite Hq. cbn [matdot]. rewrite (matvec_r_ok r (pdim (S (S p)) r)); auto. Qed.

Lemma papply_mat p r k E Q : 0 < r -> is_mat r (pdim p r) E -> is_mat r k Q -> exists D,
  pdatablock p (M Q) = Ok D /\ papply p E (M Q) = Ok (M (matmul E D)).
Proof. intros Hr HE HQ. destruct (pdatablock_ok p r k Q Hr HQ) as [D [ED [HD _]]]. exists D. split; auto.
  unfold papply. rewrite (is_mat_nrows _ _ _ HE), (is_mat_nrows _ _ _ HQ), Nat.eqb_refl. cbn [negb].
  assert (Hn : Q <> []) by (intros ->; destruct HQ; simpl in *; lia).
  destruct p as [|[|p]].
  - cbn in ED. injection ED as <-. do 2 f_equal. cbn [pdim] in *.
    rewrite (ncols_is_mat r k) by auto.
    destruct (const_cols r k (map (fun row => nth 0 row 0%R) E)) as [C1 C2].
    { unfold is_vec. rewrite map_length. destruct HE; auto. }
    rewrite map_map in C1, C2.
    assert (EE : map (fun row : vec => [nth 0 row 0%R]) E = E).
    { rewrite <- (map_id E) at 2. apply map_ext_in. intros row Hrow. destruct HE as [_ HF]. rewrite Forall_forall in HF.
      specialize (HF _ Hrow). rewrite (vec_1 row) at 2 by auto. reflexivity. }
    rewrite EE in C1, C2. apply (mat_ext r k); auto.
    + apply is_mat_map; [destruct HE; auto|]. intros. rewrite map_length, seq_length. auto.
    + intros i j Hi Hj. rewrite C2 by auto. rewrite (mget_map r 1) by auto. rewrite vget_tab by auto.
      unfold vget. rewrite (nth_map_in _ _ _ _ []) by (destruct HE; lia). reflexivity.
  - assert (D = Q) as -> by (cbn in ED; destruct Q; [tauto|]; injection ED as <-; reflexivity).
    cbn [matdot]. rewrite (matmul_r_ok r (pdim 1 r) k) by auto. reflexivity.
  - assert (exp_p vmul [] Q (S (S p)) = Ok D) as ->.
    { cbn [pdatablock atleast_2d] in ED. destruct Q; [tauto|auto]. }
    cbn [matdot]. rewrite (matmul_r_ok r (pdim (S (S p)) r) k) by auto. reflexivity. Qed.

Lemma pagree p r m E o : 0 < r -> 0 < m -> is_mat r (pdim p r) E -> as_op p E = Some o -> wf_op r m o /\
  (forall q u, is_vec r q -> is_vec m u -> papply p E (V q) = apply o (V q) (V u)) /\
  (forall k Q U, is_mat r k Q -> is_mat m k U -> papply p E (M Q) = apply o (M Q) (M U) /\
     pdatablock p (M Q) = datablock o (M Q) (M U)).
Proof. intros Hr Hm HE Ho.
  assert (Hwf : wf_op r m o).
  { destruct p as [|[|[|[|[|p]]]]]; cbn [as_op] in Ho; try discriminate; injection Ho as <-; cbn [wf_op].
    - unfold is_vec. rewrite map_length. destruct HE; auto.
    - cbn [pdim] in HE. replace (comb (r + 1 - 1) 1) with r in HE; auto.
      pose proof (pdim_desc 0 r) as K. rewrite desc1_length in K. cbn [pdim] in K. auto.
    - rewrite <- pdim_opdim. exact HE.
    - rewrite <- pdim_opdim. exact HE.
    - rewrite <- pdim_opdim. exact HE. }
  assert (HD : forall q u, is_vec r q -> datavec o q u = map (mono q) (monomials p r)).
  { intros q u Hq. destruct p as [|[|[|[|[|p]]]]]; cbn [as_op] in Ho; try discriminate; injection Ho as <-; cbn [datavec];
    try (rewrite ckron_of_mono, Hq; reflexivity).
    - reflexivity.
    - assert (Hn : q <> []) by (intros ->; unfold is_vec in Hq; simpl in Hq; lia).
      pose proof (exp_p_mono 0 q Hn) as K. cbn [exp_p] in K. injection K as K. rewrite Hq in K. exact K. }
  assert (HE2 : entries2 o = E).
  { destruct p as [|[|[|[|[|p]]]]]; cbn [as_op] in Ho; try discriminate; injection Ho as <-; cbn [entries2]; auto.
    rewrite map_map. rewrite <- (map_id E) at 2. apply map_ext_in. intros row Hrow. destruct HE as [_ HF].
    rewrite Forall_forall in HF. specialize (HF _ Hrow). rewrite (vec_1 row) at 2 by auto. reflexivity. }
  assert (HO : opdim o r m = pdim p r).
  { destruct p as [|[|[|[|[|p]]]]]; cbn [as_op] in Ho; try discriminate; injection Ho as <-; cbn [opdim];
    try (rewrite <- pdim_opdim; reflexivity); auto. rewrite pdim_desc, desc1_length. reflexivity. }
  split; auto. split.
  - intros q u Hq Hu. rewrite (papply_vec p r) by auto. rewrite (apply_vec r m) by auto. rewrite HD, HE2 by auto. reflexivity.
  - intros k Q U HQ HU. destruct (papply_mat p r k E Q Hr HE HQ) as [D [ED EP]].
    destruct (pdatablock_ok p r k Q Hr HQ) as [D' [ED' [HDs HDc]]]. rewrite ED in ED'. injection ED' as <-.
    rewrite ED, EP. rewrite (apply_mat r m k), (datablock_ok r m k) by auto.
    assert (D = datamat o Q U) as ->.
    { pose proof (datamat_shape r m k o Q U Hr HQ HU) as HS. rewrite HO in HS.
      apply (mat_ext_col (pdim p r) k); auto. intros j Hj. rewrite HDc by auto.
      pose proof (datamat_col r m k o Q U j Hr HQ HU Hj) as K. rewrite HO in K. rewrite K.
      symmetry. apply HD. apply is_vec_colv. }
    rewrite HE2. auto. Qed.

Lemma pcopy_loses isc o c : pcopy isc o = Ok c -> pentries c = None /\ pentries o <> None.
Proof. unfold pcopy. destruct (pentries o) as [[|[|x [|? ?]] [|? ?]]|] eqn:E; try discriminate.
  destruct (Rlt_dec x 0); try discriminate. destruct (isc x); try discriminate. intros K. injection K as <-.
  cbn. split; [auto|discriminate]. Qed.

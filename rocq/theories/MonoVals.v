(* MonoVals.v -- the values of rhs(), of the shifted left-hand side and of the data matrix of a model. *)
From Coq Require Import ZArith String.
From Verif Require Export MonoLists.
#[local] Open Scope nat_scope.

(* ---- operators that take no inputs ------------------------------------------------------------------------------------ *)
Lemma has_inputs_cls e : has_inputs (cls_of e) = match e with OInp _ | OStIn _ => true | _ => false end.
Proof. destruct e; reflexivity. Qed.
Lemma apply_noinput e q u u' : has_inputs (cls_of e) = false -> apply e q u = apply e q u'.
Proof. destruct e; cbn; auto; discriminate. Qed.
Lemma wf_noinput r m m' e : has_inputs (cls_of e) = false -> wf_op r m e -> wf_op r m' e.
Proof. destruct e; cbn; auto; discriminate. Qed.
Lemma opdim_noinput c r m m' : has_inputs c = false -> opdim (proto c) r m = opdim (proto c) r m'.
Proof. destruct c; cbn; auto; discriminate. Qed.
Lemma valid_wf o e m : valid_op o -> mo_ent o = Some e -> (takes_input o = true -> op_inputs e = m) ->
  0 < op_rows e /\ cls_of e = mo_cls o /\ wf_op (op_rows e) m e.
Proof. intros HV E H. destruct (HV e E) as (Hc & r & m0 & Hr & Hm & Hw). unfold takes_input in H. rewrite <- Hc in H.
  destruct e as [c|A|d A|B|N]; cbn in *.
  - unfold is_vec in *. subst. auto.
  - rewrite (is_mat_nrows _ _ _ Hw). auto.
  - rewrite (is_mat_nrows _ _ _ Hw). auto.
  - rewrite (is_mat_nrows _ _ _ Hw). specialize (H eq_refl). rewrite (ncols_is_mat r m0 B Hw Hr) in H. subst. auto.
  - rewrite (is_mat_nrows _ _ _ Hw). specialize (H eq_refl). rewrite (ncols_is_mat r (r * m0) N Hw Hr), (is_mat_nrows _ _ _ Hw) in H.
    rewrite Nat.mul_comm, Nat.div_mul in H by lia. subst. rewrite Nat.mul_comm. split; auto. split; auto. rewrite Nat.mul_comm. auto. Qed.
Lemma valid_inputs_pos o e : valid_op o -> mo_ent o = Some e -> takes_input o = true -> 0 < op_inputs e.
Proof. intros HV E H. destruct (HV e E) as (Hc & r & m0 & Hr & Hm & Hw). unfold takes_input in H. rewrite <- Hc in H.
  destruct e as [c|A|d A|B|N]; cbn in *; try discriminate.
  - rewrite (ncols_is_mat r m0 B Hw Hr). auto.
  - rewrite (ncols_is_mat r (r * m0) N Hw Hr), (is_mat_nrows _ _ _ Hw). rewrite Nat.mul_comm, Nat.div_mul by lia. auto. Qed.

(* a calibrated operator of size (r, m) *)
Definition sized (r m : nat) (o : mop) : Prop := exists e, mo_ent o = Some e /\ cls_of e = mo_cls o /\ wf_op r m e.
Definition opval (q u : vec) (i : nat) (o : mop) : R :=
  match mo_ent o with Some e => vget (matvec (entries2 e) (datavec e q u)) i | None => 0%R end.

Lemma op_apply_vec r m o q u ou : 0 < r -> 0 < m -> sized r m o -> is_vec r q -> is_vec m u -> (takes_input o = true -> ou = Some (V u)) ->
  exists y, op_apply o (V q) ou = Ok (V y) /\ is_vec r y /\ forall i, vget y i = opval q u i o.
Proof. intros Hr Hm (e & Ee & Hc & Hw) Hq Hu Hin. exists (matvec (entries2 e) (datavec e q u)).
  assert (HE : is_vec r (matvec (entries2 e) (datavec e q u))) by (apply (is_vec_matvec r (opdim e r m)), entries2_shape; auto).
  split; [|split; auto; intros; unfold opval; rewrite Ee; auto].
  unfold op_apply. rewrite Ee. rewrite <- (apply_vec r m e q u) by auto. destruct (takes_input o) eqn:ET.
  - rewrite Hin by auto. reflexivity.
  - unfold takes_input in ET. rewrite <- Hc in ET. destruct ou; apply apply_noinput; auto. Qed.
Lemma op_apply_mat r m k o Q U oU : 0 < r -> 0 < m -> sized r m o -> is_mat r k Q -> is_mat m k U -> (takes_input o = true -> oU = Some (M U)) ->
  exists Y, op_apply o (M Q) oU = Ok (M Y) /\ is_mat r k Y /\
    forall i j, i < r -> j < k -> mget Y i j = opval (colv r Q j) (colv m U j) i o.
Proof. intros Hr Hm (e & Ee & Hc & Hw) HQ HU Hin.
  destruct (apply_columns r m k e Q U Hr Hm Hw HQ HU) as (D & Y & H1 & H2 & H3 & H4 & H5 & H6). exists Y. split; [|split; auto].
  - unfold op_apply. rewrite Ee. rewrite <- H2. destruct (takes_input o) eqn:ET.
    + rewrite Hin by auto. reflexivity.
    + unfold takes_input in ET. rewrite <- Hc in ET. destruct oU; apply apply_noinput; auto.
  - intros i j Hi Hj. unfold opval. rewrite Ee. assert (E := H6 j Hj). rewrite (apply_vec r m) in E by (auto using is_vec_colv).
    injection E as E. rewrite E. rewrite vget_colv by auto. reflexivity. Qed.

Lemma sum_apply_vec r m l q u ou : 0 < r -> 0 < m -> Forall (sized r m) l -> is_vec r q -> is_vec m u ->
  (forall o, In o l -> takes_input o = true -> ou = Some (V u)) -> forall acc, is_vec r acc ->
  exists w, sum_apply l (V q) ou (V acc) = Ok (V w) /\ is_vec r w /\ forall i, vget w i = (vget acc i + lsum (map (opval q u i) l))%R.
Proof. intros Hr Hm HF Hq Hu. induction HF as [|o l Ho HF IH]; intros Hin acc Hacc.
  - exists acc. split; auto. split; auto. intros i. unfold lsum; cbn. ring.
  - destruct (op_apply_vec r m o q u ou Hr Hm Ho Hq Hu) as (y & E & Hy & Hv). { intros; apply (Hin o); auto; left; auto. }
    cbn [sum_apply]. rewrite E. cbn [bind iadd]. unfold is_vec in Hy, Hacc. rewrite Hy, Hacc, Nat.eqb_refl. cbn [bind].
    destruct (IH ltac:(intros; apply (Hin o0); auto; right; auto) (vadd acc y)) as (w & E2 & Hw & Hv2). { apply is_vec_vadd; auto. }
    exists w. split; auto. split; auto. intros i. rewrite Hv2. cbn [map]. rewrite lsum_cons, (vget_vadd r) by auto. rewrite Hv. ring. Qed.

Lemma rhs_value r m d q u ou : 0 < r -> 0 < m -> Forall (sized r m) (m_ops d) -> is_vec r q -> is_vec m u ->
  (forall o, In o (m_ops d) -> takes_input o = true -> ou = Some (V u)) ->
  exists w, rhs d (V q) ou = Ok (V w) /\ is_vec r w /\ forall i, i < r -> vget w i = lsum (map (opval q u i) (m_ops d)).
Proof. intros Hr Hm HF Hq Hu Hin. unfold rhs. cbn [emap].
  destruct (sum_apply_vec r m (m_ops d) q u ou Hr Hm HF Hq Hu Hin (map (fun _ => 0%R) q)) as (w & E & Hw & Hv).
  { unfold is_vec. rewrite map_length. auto. }
  exists w. split; auto. split; auto. intros i Hi. rewrite Hv. rewrite vget_map by (unfold is_vec in Hq; lia). ring. Qed.

(* ---- by position ------------------------------------------------------------------------------------------------------- *)
Definition posval (q u : vec) (i : nat) (l : list mop) (a : nat) : R := match nth_error l a with Some o => opval q u i o | None => 0%R end.
Lemma posval_all q u i l : lsum (map (opval q u i) l) = lsum (map (posval q u i l) (seq 0 (length l))).
Proof. induction l as [|o l IH]; auto. cbn [length seq map]. rewrite !lsum_cons. f_equal. rewrite IH, <- seq_shift, map_map. reflexivity. Qed.
Lemma posval_parts q u i l ix kn : Permutation (ix ++ kn) (seq 0 (length l)) ->
  lsum (map (opval q u i) l) = (lsum (map (posval q u i l) ix) + lsum (map (posval q u i l) kn))%R.
Proof. intros H. rewrite posval_all. rewrite <- lsum_app, <- map_app. apply lsum_Permutation, Permutation_map, Permutation_sym. exact H. Qed.
Lemma posval_ext q u i l l' ix : (forall a, In a ix -> nth_error l' a = nth_error l a) ->
  lsum (map (posval q u i l') ix) = lsum (map (posval q u i l) ix).
Proof. intros H. f_equal. apply map_ext_in. intros a Ha. unfold posval. rewrite H by auto. reflexivity. Qed.

Lemma subtract_ok r m k l Q U oU : 0 < r -> 0 < m -> is_mat r k Q -> is_mat m k U -> forall ix L,
  (forall a, In a ix -> exists o, nth_error l a = Some o /\ sized r m o /\ (takes_input o = true -> oU = Some (M U))) ->
  is_mat r k L -> exists L', subtract_known l ix Q oU L = Ok L' /\ is_mat r k L' /\
    forall i j, i < r -> j < k -> mget L' i j = (mget L i j - lsum (map (posval (colv r Q j) (colv m U j) i l) ix))%R.
Proof. intros Hr Hm HQ HU. induction ix as [|a ix IH]; intros L Hix HL.
  - exists L. split; auto. split; auto. intros. unfold lsum; cbn. ring.
  - destruct (Hix a (or_introl eq_refl)) as (o & Eo & Hs & Hin). cbn [subtract_known]. unfold nth_op. rewrite Eo. cbn [bind].
    destruct (op_apply_mat r m k o Q U oU Hr Hm Hs HQ HU Hin) as (Y & E & HY & Hv). rewrite E. cbn [bind].
    unfold shape_is. rewrite (is_mat_nrows _ _ _ HL), (is_mat_nrows _ _ _ HY), (ncols_is_mat _ _ _ HL Hr), (ncols_is_mat _ _ _ HY Hr), !Nat.eqb_refl.
    cbn [andb]. destruct (IH (msub L Y)) as (L' & E2 & HL' & Hv2). { intros; apply Hix; right; auto. } { apply is_mat_msub; auto. }
    exists L'. split; auto. split; auto. intros i j Hi Hj. rewrite Hv2 by auto. rewrite (mget_msub r k) by auto. rewrite Hv by auto.
    cbn [map]. rewrite lsum_cons. unfold posval at 2. rewrite Eo. ring. Qed.

(* ---- the data matrix ------------------------------------------------------------------------------------------------- *)
Definition dblock (Q U : mat) (l : list mop) (a : nat) : mat :=
  match nth_error l a with Some o => mT (datamat (proto (mo_cls o)) Q U) | None => [] end.
Lemma dblock_shape r m k Q U l a : 0 < r -> 0 < m -> is_mat r k Q -> is_mat m k U -> a < length l ->
  is_mat k (wd r m l a) (dblock Q U l a).
Proof. intros Hr Hm HQ HU Ha. unfold dblock, wd. destruct (nth_error l a) as [o|] eqn:E; [|apply nth_error_None in E; lia].
  apply is_mat_mT; [apply datamat_shape; auto|apply op_dim_pos; auto]. Qed.
Lemma dblocks r m k Q U l ix : 0 < r -> 0 < m -> is_mat r k Q -> is_mat m k U -> (forall a, In a ix -> a < length l) ->
  blocks k (map (wd r m l) ix) (map (dblock Q U l) ix).
Proof. intros Hr Hm HQ HU H. induction ix as [|a ix IH]; cbn; [constructor|]. constructor.
  - apply dblock_shape; auto. apply H; left; auto.
  - apply IH. intros; apply H; right; auto. Qed.
Lemma assemble_ok r m k d Q U oU : 0 < r -> 0 < m -> is_mat r k Q -> is_mat m k U -> m_infer d <> [] ->
  (forall a, In a (m_infer d) -> exists o, nth_error (m_ops d) a = Some o /\ (takes_input o = true -> oU = Some (M U))) ->
  assemble d Q oU = Ok (hstack (map (dblock Q U (m_ops d)) (m_infer d))).
Proof. intros Hr Hm HQ HU Hne H. unfold assemble.
  rewrite (mapM_ok _ (dblock Q U (m_ops d))).
  - cbn [bind]. destruct (m_infer d); [congruence|]. reflexivity.
  - intros a Ha. destruct (H a Ha) as (o & Eo & Hin). unfold nth_op, dblock. rewrite Eo. cbn [bind].
    assert (E : op_datablock o Q oU = Ok (datamat (proto (mo_cls o)) Q U)).
    { rewrite <- (datablock_ok r m k) by auto. unfold op_datablock. destruct (takes_input o) eqn:ET.
      - rewrite Hin by auto. reflexivity.
      - destruct oU; apply datablock_noinput; auto. }
    rewrite E. reflexivity. Qed.

(* a row of the data matrix times the operator matrix *)
Lemma hstack_dot r m k Q U l i j : 0 < r -> 0 < m -> is_mat r k Q -> is_mat m k U -> i < r -> j < k -> forall ix es,
  Forall2 (fun a e => exists o, nth_error l a = Some o /\ mo_ent o = Some e /\ cls_of e = mo_cls o /\ wf_op r m e) ix es -> ix <> [] ->
  bsum (lsumn (map (wd r m l) ix)) (fun b => (mget (hstack (map (dblock Q U l) ix)) j b * mget (hstack (map entries2 es)) i b)%R) =
  lsum (map (posval (colv r Q j) (colv m U j) i l) ix).
Proof. intros Hr Hm HQ HU Hi Hj. induction ix as [|a ix IH]; intros es HF Hne; [congruence|].
  inversion HF as [|? e ? es' (o & Eo & Ee & Hc & Hw) HF' E1 E2]; subst. clear HF.
  assert (HE := entries2_shape r m e Hw). rewrite <- opdim_proto, Hc in HE.
  assert (Ha : a < length l) by (apply nth_error_Some; congruence).
  assert (HD := dblock_shape r m k Q U l a Hr Hm HQ HU Ha).
  assert (Ew : wd r m l a = opdim (proto (mo_cls o)) r m) by (unfold wd; rewrite Eo; auto). rewrite <- Ew in HE.
  assert (V1 : bsum (wd r m l a) (fun b => (mget (dblock Q U l a) j b * mget (entries2 e) i b)%R) = posval (colv r Q j) (colv m U j) i l a).
  { unfold posval, opval. rewrite Eo, Ee.
    assert (HV := is_vec_datavec r m e (colv r Q j) (colv m U j) Hw (is_vec_colv r Q j) (is_vec_colv m U j)).
    rewrite <- opdim_proto, Hc, <- Ew in HV. rewrite (vget_matvec r (wd r m l a)) by auto.
    apply bsum_ext. intros b Hb. rewrite Rmult_comm. f_equal. unfold dblock. rewrite Eo.
    rewrite (mget_mT (opdim (proto (mo_cls o)) r m) k) by (try apply datamat_shape; auto; apply op_dim_pos; auto).
    rewrite <- Hc. rewrite <- (datavec_cls (proto (cls_of e)) e) by (rewrite cls_proto; auto).
    rewrite <- (datamat_col r m k) by auto. rewrite vget_colv; auto. rewrite Hc, <- Ew. auto. }
  destruct ix as [|a2 ix].
  - inversion HF'; subst. cbn [map]. unfold lsum, lsumn; cbn [fold_left fold_right]. cbn [hstack fold_left]. 
    change (map (dblock Q U l) [a]) with [dblock Q U l a]. rewrite <- V1. rewrite ?Nat.add_0_r, ?Nat.add_0_l, ?Rplus_0_r, ?Rplus_0_l. reflexivity.
  - destruct es' as [|e2 es']; [inversion HF'|].
    assert (IH2 := IH _ HF' ltac:(congruence)). clear IH.
    assert (HB : blocks k (map (wd r m l) (a2 :: ix)) (map (dblock Q U l) (a2 :: ix))).
    { apply dblocks; auto. intros b Hb. clear - HF' Hb. induction HF' as [|x y lx ly (o & Eo & _) H IH]; [destruct Hb|].
      destruct Hb as [<-|Hb]; auto. apply nth_error_Some. congruence. }
    assert (HBe : blocks r (map (wd r m l) (a2 :: ix)) (map entries2 (e2 :: es'))).
    { clear - HF'. induction HF' as [|x y lx ly (o & Eo & Ee & Hc & Hw) H IH]; cbn [map]; constructor; auto.
      unfold wd. rewrite Eo, <- Hc, opdim_proto. apply entries2_shape; auto. }
    change (map (dblock Q U l) (a :: a2 :: ix)) with (dblock Q U l a :: map (dblock Q U l) (a2 :: ix)).
    change (map entries2 (e :: e2 :: es')) with (entries2 e :: map entries2 (e2 :: es')).
    change (map (posval (colv r Q j) (colv m U j) i l) (a :: a2 :: ix)) with (posval (colv r Q j) (colv m U j) i l a :: map (posval (colv r Q j) (colv m U j) i l) (a2 :: ix)).
    rewrite (hstack_step k (wd r m l a) _ _ _ HD HB) by (cbn; congruence). rewrite (hstack_step r (wd r m l a) _ _ _ HE HBe) by (cbn; congruence).
    change (lsumn (map (wd r m l) (a :: a2 :: ix))) with (wd r m l a + lsumn (map (wd r m l) (a2 :: ix))).
    assert (HH := is_mat_hstack k _ _ HB ltac:(cbn; congruence)). assert (HHe := is_mat_hstack r _ _ HBe ltac:(cbn; congruence)).
    rewrite lsum_cons, bsum_split, <- V1, <- IH2. f_equal; apply bsum_ext; intros b Hb;
    rewrite (mget_hcat k (wd r m l a) (lsumn (map (wd r m l) (a2 :: ix)))), (mget_hcat r (wd r m l a) (lsumn (map (wd r m l) (a2 :: ix)))) by auto.
    + destruct (Nat.ltb_spec b (wd r m l a)); [auto|lia].
    + destruct (Nat.ltb_spec (wd r m l a + b) (wd r m l a)); [lia|]. rewrite !(Nat.add_comm (wd r m l a)), !Nat.add_sub. auto. Qed.

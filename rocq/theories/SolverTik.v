(* SolverTik.v -- proofs about TikhonovSolver and TikhonovDecoupledSolver (C35), residuals (C36) and agreement. *)
From Verif Require Export SolverProofs BlockAlg.
#[local] Open Scope R_scope.

Definition padsB (D ZB : mat) (c : nat) : pads :=
  {| pd_ZtPad := ZB ++ mzeros (ncols D) c; pd_DtD := matmul (mT D) D; pd_DtZt := matmul (mT D) ZB |}.

Lemma lsq_pad k d D G ZB c j y : is_mat k d D -> is_mat d d G -> is_mat k c ZB ->
  lsq (k + d) d (mget (D ++ G)) (fun t => mget (ZB ++ mzeros d c) t j) y
  = lsq k d (mget D) (fun t => mget ZB t j) y + lsq d d (mget G) zf y.
Proof.
  intros HD HG HZ. unfold lsq. rewrite bsum_split. f_equal; apply bsum_ext; intros t Ht; f_equal; unfold resid.
  - rewrite (mget_app k ZB) by apply HZ. rewrite (proj2 (Nat.ltb_lt t k) Ht). f_equal.
    apply bsum_ext. intros l Hl. rewrite (mget_app k) by apply HD. now rewrite (proj2 (Nat.ltb_lt t k) Ht).
  - rewrite (mget_app k ZB) by apply HZ. rewrite (proj2 (Nat.ltb_ge (k + t) k)) by lia. rewrite mget_mzeros. unfold zf. f_equal.
    apply bsum_ext. intros l Hl. rewrite (mget_app k) by apply HD. rewrite (proj2 (Nat.ltb_ge (k + t) k)) by lia.
    do 2 f_equal. lia.
Qed.
Lemma grad_pad k d D G ZB c j y l : is_mat k d D -> is_mat d d G -> is_mat k c ZB ->
  grad (k + d) d (mget (D ++ G)) (fun t => mget (ZB ++ mzeros d c) t j) y l
  = grad k d (mget D) (fun t => mget ZB t j) y l + grad d d (mget G) zf y l.
Proof.
  intros HD HG HZ. unfold grad. rewrite bsum_split. f_equal; apply bsum_ext; intros t Ht.
  - rewrite (mget_app k) by apply HD. rewrite (proj2 (Nat.ltb_lt t k) Ht). f_equal. unfold resid.
    rewrite (mget_app k ZB) by apply HZ. rewrite (proj2 (Nat.ltb_lt t k) Ht). f_equal.
    apply bsum_ext. intros i Hi. rewrite (mget_app k) by apply HD. now rewrite (proj2 (Nat.ltb_lt t k) Ht).
  - rewrite (mget_app k) by apply HD. rewrite (proj2 (Nat.ltb_ge (k + t) k)) by lia. replace (k + t - k)%nat with t by lia. f_equal. unfold resid.
    rewrite (mget_app k ZB) by apply HZ. rewrite (proj2 (Nat.ltb_ge (k + t) k)) by lia. rewrite mget_mzeros. unfold zf. f_equal.
    apply bsum_ext. intros i Hi. rewrite (mget_app k) by apply HD. rewrite (proj2 (Nat.ltb_ge (k + t) k)) by lia.
    do 2 f_equal. lia.
Qed.

(* a column of the normal-equation product *)
Lemma normal_product k d c D ZB G X l j : (0 < k)%nat -> (0 < d)%nat -> is_mat k d D -> is_mat d d G -> is_mat k c ZB -> is_mat d c X ->
  matmul (madd (matmul (mT D) D) (matmul (mT G) G)) X = matmul (mT D) ZB -> (l < d)%nat -> (j < c)%nat ->
  grad k d (mget D) (fun t => mget ZB t j) (fun i => mget X i j) l + grad d d (mget G) zf (fun i => mget X i j) l = 0.
Proof.
  intros Hk Hd HD HG HZ HX E Hl Hj.
  assert (HDt : is_mat d k (mT D)) by now apply is_mat_mT.
  assert (HGt : is_mat d d (mT G)) by now apply is_mat_mT.
  assert (HDD : is_mat d d (matmul (mT D) D)) by (eapply is_mat_matmul; eauto).
  assert (HGG : is_mat d d (matmul (mT G) G)) by (eapply is_mat_matmul; eauto).
  assert (E' := f_equal (fun W => mget W l j) E). cbv beta in E'.
  rewrite (mget_matmul d d c) in E' by (auto; now apply is_mat_madd).
  rewrite (mget_matmul d k c) in E' by auto.
  rewrite (bsum_ext k (fun t => mget (mT D) l t * mget ZB t j) (fun t => mget D t l * mget ZB t j)) in E'
    by (intros; now rewrite (mget_mT k d)).
  rewrite (bsum_ext d _ (fun i => bsum k (fun t => mget D t l * (mget D t i * mget X i j)) + bsum d (fun a => mget G a l * (mget G a i * mget X i j)))) in E'.
  2:{ intros i Hi. rewrite (mget_madd d d) by auto. rewrite (mget_matmul d k d), (mget_matmul d d d) by auto.
      rewrite Rmult_plus_distr_r, <- !bsum_scal_r. f_equal; apply bsum_ext; intros t Ht.
      - rewrite (mget_mT k d) by auto. ring.
      - rewrite (mget_mT d d) by auto. ring. }
  rewrite bsum_plus, (bsum_swap d k), (bsum_swap d d) in E'.
  unfold grad, resid, zf.
  rewrite (bsum_ext k (fun t => mget D t l * (bsum d (fun i => mget D t i * mget X i j) - mget ZB t j))
             (fun t => bsum d (fun i => mget D t l * (mget D t i * mget X i j)) - mget D t l * mget ZB t j))
    by (intros; rewrite bsum_scal_l; ring).
  rewrite (bsum_ext d (fun t => mget G t l * (bsum d (fun i => mget G t i * mget X i j) - 0))
             (fun t => bsum d (fun i => mget G t l * (mget G t i * mget X i j))))
    by (intros; rewrite bsum_scal_l; ring).
  rewrite bsum_minus. lra.
Qed.

Lemma tk_solve1_grad lst slv mt op k d c D G ZB X :
  lstsq_spec lst op -> solve_spec slv -> (0 < k)%nat -> (0 < d)%nat -> is_mat k d D -> is_mat d d G -> is_mat k c ZB ->
  tk_solve1 lst slv mt op D G (padsB D ZB c) = Ok X ->
  is_mat d c X /\
  (forall j l, (j < c)%nat -> (l < d)%nat ->
    grad k d (mget D) (fun t => mget ZB t j) (fun i => mget X i j) l + grad d d (mget G) zf (fun i => mget X i j) l = 0) /\
  (mt = MLstsq -> forall j y, (j < c)%nat ->
    lsq k d (mget D) (fun t => mget ZB t j) y + lsq d d (mget G) zf y
      <= lsq k d (mget D) (fun t => mget ZB t j) (fun i => mget X i j) + lsq d d (mget G) zf (fun i => mget X i j) ->
    nrm2 d (fun i => mget X i j) <= nrm2 d y).
Proof.
  intros HL HS Hk Hd HD HG HZ E. destruct mt; cbn [tk_solve1 padsB pd_ZtPad pd_DtD pd_DtZt] in E; unfold bind in E.
  - unfold vstack2 in E. destruct (ncols D =? ncols G)%nat; [|discriminate].
    destruct (guard _ _); [|discriminate].
    rewrite (ncols_is_mat _ _ _ HD Hk) in E.
    assert (HA : is_mat (k + d) d (D ++ G)) by now apply is_mat_app.
    assert (HB : is_mat (k + d) c (ZB ++ mzeros d c)) by (apply is_mat_app; [auto|apply is_mat_mzeros]).
    destruct (HL (k + d)%nat d c _ _ X ltac:(lia) Hd HA HB E) as [HX _].
    destruct (lstsq_rows lst op (k + d) d c _ _ X HL ltac:(lia) Hd HA HB E) as [HXt HM].
    split; [exact HX|].
    assert (ER : forall j i, (j < c)%nat -> (i < d)%nat -> mget (mT X) j i = mget X i j) by (intros; now apply (mget_mT d c)).
    split.
    + intros j l Hj Hl. rewrite <- (grad_pad k d D G ZB c) by auto.
      apply (min_normal (k + d) d); auto. intros y.
      rewrite (lsq_ext (k + d) d (mget (D ++ G)) _ (fun i => mget X i j) (mget (D ++ G)) (fun t => mget (ZB ++ mzeros d c) t j) (mget (mT X) j)); auto.
      * now apply HM.
      * intros i Hi. now rewrite ER.
    + intros _ j y Hj Hle. rewrite <- !(lsq_pad k d D G ZB c) in Hle by auto.
      rewrite (nrm2_ext d (fun i => mget X i j) (mget (mT X) j)) by (intros; now rewrite ER).
      apply (proj2 (HM j Hj)). eapply Rle_trans; [exact Hle|]. right. apply lsq_ext; auto. intros i Hi. now rewrite ER.
  - destruct (madd_r _ _) as [A|] eqn:EA; [|discriminate]. unfold madd_r in EA.
    destruct (shape_is _ _ _); [|discriminate]. injection EA as <-.
    assert (HDt : is_mat d k (mT D)) by now apply is_mat_mT.
    assert (HGt : is_mat d d (mT G)) by now apply is_mat_mT.
    destruct (HS d c _ _ X (is_mat_madd _ _ _ _ (is_mat_matmul _ _ _ _ _ HDt HD Hk) (is_mat_matmul _ _ _ _ _ HGt HG Hd))
                (is_mat_matmul _ _ _ _ _ HDt HZ Hk) E) as [HX EX].
    split; [exact HX|]. split; [|discriminate].
    intros j l Hj Hl. now apply (normal_product k d c D ZB G X l j).
Qed.

Lemma mkpads_B D Z : mkpads D Z = padsB D (mT Z) (nrows Z). Proof. reflexivity. Qed.

(* ---- reachable states ---- *)
Lemma dims_eq D Z k d r : dims D Z k d r -> nrows D = k /\ ncols D = d /\ nrows Z = r.
Proof. intros (Hk & _ & _ & HD & HZ). unfold nrows. rewrite (is_mat_len _ _ _ HD), (is_mat_len _ _ _ HZ), (ncols_is_mat _ _ _ HD Hk). auto. Qed.

Lemma tk_reach_ok s : tk_reach s -> forall D Z, tk_data s = Some (D, Z) -> tk_pre s = Some (mkpads D Z) /\ exists k d r, dims D Z k d r.
Proof.
  intros H. induction H as [m o|s D0 Z0 s' _ IH HD HZ E|s g _ IH]; intros D Z HDZ.
  - discriminate.
  - unfold tk_fit in E. destruct (base_fit D0 Z0) as [[D' Z']|] eqn:EB; [|discriminate].
    destruct (match tk_reg s with Some G => _ | None => Ok tt end) as [|]; [|discriminate].
    apply pair_equal_spec in E. destruct E as [<- _]. cbn in HDZ |- *. injection HDZ as -> ->. split; [reflexivity|].
    destruct (base_fit_ok _ _ _ _ HD HZ EB) as (_ & _ & k & d & r & H'). exists k, d, r. exact H'.
  - assert (Es : tk_data (fst (tk_set s g)) = tk_data s /\ tk_pre (fst (tk_set s g)) = tk_pre s).
    { destruct g as [[v|G]|]; cbn; auto. destruct (negs v); auto. }
    destruct Es as [E1 E2]. rewrite E1 in HDZ. rewrite E2. now apply IH.
Qed.
Lemma td_reach_ok s : td_reach s -> forall D Z, td_data s = Some (D, Z) -> td_pre s = Some (mkpads D Z) /\ exists k d r, dims D Z k d r.
Proof.
  intros H. induction H as [m|s D0 Z0 s' _ IH HD HZ E|s g _ IH]; intros D Z HDZ.
  - discriminate.
  - unfold td_fit in E. destruct (base_fit D0 Z0) as [[D' Z']|] eqn:EB; [|discriminate].
    destruct (match td_reg s with Some G => _ | None => Ok tt end) as [|]; [|discriminate].
    apply pair_equal_spec in E. destruct E as [<- _]. cbn in HDZ |- *. injection HDZ as -> ->. split; [reflexivity|].
    destruct (base_fit_ok _ _ _ _ HD HZ EB) as (_ & _ & k & d & r & H'). exists k, d, r. exact H'.
  - assert (Es : td_data (fst (td_set s g)) = td_data s /\ td_pre (fst (td_set s g)) = td_pre s).
    { destruct g as [l|]; cbn; auto. destruct (mapM td_one l); auto. }
    destruct Es as [E1 E2]. rewrite E1 in HDZ. rewrite E2. now apply IH.
Qed.

(* from zero gradients to the minimisation statements *)
Definition tikobj (k d : nat) (D Z : mat) (G : nat -> mat) (O : mat) (i : nat) : R := misfit k d D Z O i + tikpen d (G i) O i.
Lemma grad_solves k d r D Z G O : is_mat r d O ->
  (forall i l, (i < r)%nat -> (l < d)%nat -> grad k d (mget D) (mget Z i) (mget O i) l + grad d d (mget (G i)) zf (mget O i) l = 0) ->
  row_minimizer r d (tikobj k d D Z G) O /\
  ((forall i, (i < r)%nat -> joint_injective k d D (G i)) -> row_unique r d (tikobj k d D Z G) O).
Proof.
  intros HO HG.
  assert (EX : forall O' i, (i < r)%nat -> tikobj k d D Z G O' i = tikobj k d D Z G O i
     + lsq k d (mget D) zf (fun l => mget O' i l - mget O i l) + lsq d d (mget (G i)) zf (fun l => mget O' i l - mget O i l)).
  { intros O' i Hi. unfold tikobj. rewrite !misfit_lsq, !tikpen_lsq.
    apply (normal_min k d (mget D) (mget Z i) d (mget (G i)) (mget O i)). auto. }
  split.
  - split; [exact HO|]. intros O' i HO' Hi. rewrite (EX O' i Hi).
    pose proof (lsq_nonneg k d (mget D) zf (fun l => mget O' i l - mget O i l)).
    pose proof (lsq_nonneg d d (mget (G i)) zf (fun l => mget O' i l - mget O i l)). lra.
  - intros HI O' i HO' Hi Hle l Hl. rewrite (EX O' i Hi) in Hle.
    pose proof (lsq_nonneg k d (mget D) zf (fun l => mget O' i l - mget O i l)).
    pose proof (lsq_nonneg d d (mget (G i)) zf (fun l => mget O' i l - mget O i l)).
    assert (L1 : lsq k d (mget D) zf (fun l => mget O' i l - mget O i l) = 0) by lra.
    assert (L2 : lsq d d (mget (G i)) zf (fun l => mget O' i l - mget O i l) = 0) by lra.
    specialize (HI i Hi (map (fun l => mget O' i l - mget O i l) (seq 0 d)) (is_vec_tab _ _)).
    assert (Z1 : forall m A, lsq m d A zf (fun l => mget O' i l - mget O i l) = 0 -> forall t, (t < m)%nat ->
               bsum d (fun j => A t j * vget (map (fun l => mget O' i l - mget O i l) (seq 0 d)) j) = 0).
    { intros m A HA t Ht. apply (bsum_nonneg_0 m _) with (i := t) in HA; auto; [|intros; apply sq_nonneg]. apply sq_0 in HA.
      unfold resid, zf in HA. rewrite Rminus_0_r in HA. rewrite <- HA. apply bsum_ext. intros j Hj. now rewrite vget_tab. }
    specialize (HI (Z1 k (mget D) L1) (Z1 d (mget (G i)) L2) l Hl). rewrite vget_tab in HI by auto. lra.
Qed.

Lemma tk_solves lst slv s D Z G O : lstsq_spec lst (tk_opts s) -> solve_spec slv -> tk_reach s ->
  tk_data s = Some (D, Z) -> tk_reg s = Some G -> is_mat (ncols D) (ncols D) G -> tk_solve lst slv s = Ok O ->
  let k := nrows D in let d := ncols D in let r := nrows Z in
  let obj := fun O i => misfit k d D Z O i + tikpen d G O i in
  row_minimizer r d obj O /\ (joint_injective k d D G -> row_unique r d obj O) /\
  (tk_method s = MLstsq -> row_shortest r d obj O) /\
  normal_eq k d r D Z O (fun i l => bsum d (fun a => mget G a l * bsum d (fun j => mget G a j * mget O i j))).
Proof.
  intros HL HS HR HD HG HGm E. destruct (tk_reach_ok s HR D Z HD) as (Hp & k & d & r & HDm).
  destruct (dims_eq _ _ _ _ _ HDm) as (Ek & Ed & Er). destruct HDm as (Hk & Hd & Hr & HDD & HZZ).
  rewrite Ek, Ed, Er in *. cbv zeta.
  unfold tk_solve, bind in E. rewrite HD, HG, Hp, mkpads_B, Er in E.
  destruct (tk_solve1 _ _ _ _ _ _ _) as [X|] eqn:EX; [|discriminate]. injection E as <-.
  destruct (tk_solve1_grad lst slv _ _ k d r D G (mT Z) X HL HS Hk Hd HDD HGm (is_mat_mT _ _ _ HZZ Hr) EX) as (HX & HGr & HSh).
  assert (HO : is_mat r d (mT X)) by now apply is_mat_mT.
  assert (ER : forall j i, mget (mT X) j i = mget X i j) by (intros; now apply (mget_mT d r)).
  assert (EZ : forall i t, mget (mT Z) t i = mget Z i t) by (intros; now apply (mget_mT r k)).
  assert (HGG : forall i l, (i < r)%nat -> (l < d)%nat -> grad k d (mget D) (mget Z i) (mget (mT X) i) l + grad d d (mget G) zf (mget (mT X) i) l = 0).
  { intros i l Hi Hl. rewrite <- (HGr i l Hi Hl). unfold grad, resid. f_equal; apply bsum_ext; intros t Ht; f_equal; f_equal; auto;
    apply bsum_ext; intros j Hj; now rewrite ER. }
  destruct (grad_solves k d r D Z (fun _ => G) (mT X) HO HGG) as [M1 M2].
  split; [exact M1|]. split; [auto|]. split.
  - intros Hm O' i HO' Hi Hle. rewrite !misfit_lsq, !tikpen_lsq in Hle.
    specialize (HSh Hm i (mget O' i) Hi).
    assert (EN : nrm2 d (mget (mT X) i) = nrm2 d (fun l => mget X l i)) by (apply nrm2_ext; intros; apply ER).
    change (nrm2 d (mget (mT X) i) <= nrm2 d (mget O' i)). rewrite EN. apply HSh.
    assert (EQ : forall y, lsq k d (mget D) (fun t => mget (mT Z) t i) y = lsq k d (mget D) (mget Z i) y) by (intros; apply lsq_ext; auto).
    rewrite !EQ. eapply Rle_trans; [exact Hle|]. right. f_equal; apply lsq_ext; auto.
  - intros i l Hi Hl. rewrite <- (HGG i l Hi Hl). unfold grad, resid, zf. f_equal. apply bsum_ext. intros a Ha. now rewrite Rminus_0_r.
Qed.

(* ---- decoupled ---- *)
Lemma is_mat_colm r c A i : is_mat r c A -> is_mat r 1 (colm i A).
Proof. intros [HL HF]. split; [unfold colm; now rewrite map_length|]. unfold colm. apply Forall_forall. intros x Hx. apply in_map_iff in Hx. destruct Hx as (y & <- & _). reflexivity. Qed.
Lemma mget_colm r c A i t : is_mat r c A -> (t < r)%nat -> mget (colm i A) t 0 = mget A t i.
Proof.
  intros [HL HF] Ht. unfold mget, colm. rewrite (nth_map_in _ A t [] []) by lia. reflexivity.
Qed.
Lemma colm_matmul r n c A B i : is_mat r n A -> is_mat n c B -> (0 < n)%nat -> (i < c)%nat -> colm i (matmul A B) = matmul A (colm i B).
Proof.
  intros HA HB Hn Hi. apply (mat_ext r 1).
  - eapply is_mat_colm. eapply is_mat_matmul; eauto.
  - eapply is_mat_matmul; eauto. eapply is_mat_colm; eauto.
  - intros a b Ha Hb. replace b with 0%nat by lia.
    rewrite (mget_colm r c) by (auto; eapply is_mat_matmul; eauto).
    rewrite (mget_matmul r n c), (mget_matmul r n 1) by (auto; eapply is_mat_colm; eauto).
    apply bsum_ext. intros j Hj. now rewrite (mget_colm n c).
Qed.
Lemma colm_pad A d c i : (i < c)%nat -> colm i (A ++ mzeros d c) = colm i A ++ mzeros d 1.
Proof.
  intros Hi. unfold colm. rewrite map_app. f_equal. unfold mzeros. induction d as [|d IH]; [reflexivity|].
  cbn [repeat map]. f_equal; [|exact IH]. cbn [repeat]. f_equal. apply nth_error_nth. now apply nth_error_repeat.
Qed.

Lemma td_solves lst slv s D Z Gs O : lstsq_spec lst no_opts -> solve_spec slv -> td_reach s ->
  td_data s = Some (D, Z) -> td_reg s = Some Gs -> length Gs = nrows Z -> Forall (is_mat (ncols D) (ncols D)) Gs -> td_solve lst slv s = Ok O ->
  let k := nrows D in let d := ncols D in let r := nrows Z in
  let obj := fun O i => misfit k d D Z O i + tikpen d (nth i Gs []) O i in
  row_minimizer r d obj O /\ ((forall i, (i < r)%nat -> joint_injective k d D (nth i Gs [])) -> row_unique r d obj O) /\
  (td_method s = MLstsq -> row_shortest r d obj O) /\
  normal_eq k d r D Z O (fun i l => bsum d (fun a => mget (nth i Gs []) a l * bsum d (fun j => mget (nth i Gs []) a j * mget O i j))).
Proof.
  intros HL HS HR HD HG HLen HGm E. destruct (td_reach_ok s HR D Z HD) as (Hp & k & d & r & HDm).
  destruct (dims_eq _ _ _ _ _ HDm) as (Ek & Ed & Er). destruct HDm as (Hk & Hd & Hr & HDD & HZZ).
  rewrite Ek, Ed, Er in *. cbv zeta.
  unfold td_solve, bind in E. rewrite HD, HG, Hp, Er in E.
  destruct (mapM _ _) as [rows|] eqn:EM; [|discriminate]. destruct (length Gs <? r)%nat; [discriminate|]. injection E as <-.
  apply mapM_nth in EM. destruct EM as [EML EMN].
  assert (Lc : length (combine (seq 0 (length Gs)) Gs) = r) by (rewrite combine_length, seq_length; lia).
  rewrite Lc in *.
  assert (HZt : is_mat k r (mT Z)) by now apply is_mat_mT.
  assert (ROW : forall i, (i < r)%nat -> exists X, is_mat d 1 X /\ nth i rows [] = map (fun row => nth 0 row 0) X /\
     (forall l, (l < d)%nat -> grad k d (mget D) (mget Z i) (fun j => mget X j 0) l + grad d d (mget (nth i Gs [])) zf (fun j => mget X j 0) l = 0) /\
     (td_method s = MLstsq -> forall y, lsq k d (mget D) (mget Z i) y + lsq d d (mget (nth i Gs [])) zf y
        <= lsq k d (mget D) (mget Z i) (fun j => mget X j 0) + lsq d d (mget (nth i Gs [])) zf (fun j => mget X j 0) ->
        nrm2 d (fun j => mget X j 0) <= nrm2 d y)).
  { intros i Hi. specialize (EMN i (0%nat, []) [] Hi). rewrite combine_nth in EMN by (rewrite seq_length; lia).
    rewrite seq_nth in EMN by lia. rewrite Nat.add_0_l in EMN.
    destruct (guard (r <=? i)%nat IndexError); [|discriminate].
    destruct (tk_solve1 _ _ _ _ _ _ _) as [X|] eqn:EX; [|discriminate]. injection EMN as EMN.
    exists X.
    assert (HGi : is_mat d d (nth i Gs [])) by (apply (proj1 (Forall_nth _ Gs) HGm); lia).
    assert (EP : {| pd_ZtPad := colm i (pd_ZtPad (mkpads D Z)); pd_DtD := pd_DtD (mkpads D Z); pd_DtZt := colm i (pd_DtZt (mkpads D Z)) |}
               = padsB D (colm i (mT Z)) 1).
    { unfold mkpads, padsB. cbn [pd_ZtPad pd_DtD pd_DtZt]. rewrite Er, (colm_pad (mT Z)) by auto.
      rewrite (colm_matmul d k r) by (auto; now apply is_mat_mT). reflexivity. }
    rewrite EP in EX.
    destruct (tk_solve1_grad lst slv _ _ k d 1 D (nth i Gs []) (colm i (mT Z)) X HL HS Hk Hd HDD HGi (is_mat_colm _ _ _ _ HZt) EX) as (HX & HGr & HSh).
    assert (EZ : forall t, (t < k)%nat -> mget (colm i (mT Z)) t 0 = mget Z i t).
    { intros t Ht. rewrite (mget_colm k r) by auto. now apply (mget_mT r k). }
    split; [exact HX|]. split; [now symmetry|]. split.
    - intros l Hl. rewrite <- (HGr 0%nat l ltac:(lia) Hl). f_equal. unfold grad. apply bsum_ext. intros t Ht. unfold resid. now rewrite EZ.
    - intros Hm y Hle. apply (HSh Hm 0%nat y ltac:(lia)).
      assert (EQ : forall y, lsq k d (mget D) (fun t => mget (colm i (mT Z)) t 0) y = lsq k d (mget D) (mget Z i) y) by (intros; apply lsq_ext; auto).
      now rewrite !EQ. }
  assert (EN : forall i X, is_mat d 1 X -> nth i rows [] = map (fun row => nth 0 row 0) X -> forall l, (l < d)%nat -> mget rows i l = mget X l 0).
  { intros i X [HXl _] Ei l Hl. unfold mget at 1. rewrite Ei. rewrite (nth_map_in _ X l 0 []) by lia. reflexivity. }
  assert (HO : is_mat r d rows).
  { split; [lia|]. apply Forall_forall. intros x Hx. apply (In_nth _ _ []) in Hx. destruct Hx as (i & Hi & <-).
    destruct (ROW i ltac:(lia)) as (X & [HXl _] & -> & _). rewrite map_length. exact HXl. }
  assert (HGG : forall i l, (i < r)%nat -> (l < d)%nat -> grad k d (mget D) (mget Z i) (mget rows i) l + grad d d (mget (nth i Gs [])) zf (mget rows i) l = 0).
  { intros i l Hi Hl. destruct (ROW i Hi) as (X & HX & EX & HGr & _). rewrite <- (HGr l Hl). unfold grad, resid.
    f_equal; apply bsum_ext; intros t Ht; f_equal; f_equal; apply bsum_ext; intros j Hj; now rewrite (EN i X). }
  destruct (grad_solves k d r D Z (fun i => nth i Gs []) rows HO HGG) as [M1 M2].
  split; [exact M1|]. split; [exact M2|]. split.
  - intros Hm O' i HO' Hi Hle. rewrite !misfit_lsq, !tikpen_lsq in Hle.
    destruct (ROW i Hi) as (X & HX & EX & _ & HSh). specialize (HSh Hm (mget O' i)).
    change (nrm2 d (mget rows i) <= nrm2 d (mget O' i)).
    rewrite (nrm2_ext d (mget rows i) (fun l => mget X l 0)) by (intros; now apply EN).
    apply HSh. eapply Rle_trans; [exact Hle|]. right. f_equal; apply lsq_ext; auto; intros; now apply EN.
  - intros i l Hi Hl. rewrite <- (HGG i l Hi Hl). unfold grad, resid, zf. f_equal. apply bsum_ext. intros a Ha. now rewrite Rminus_0_r.
Qed.

(* SolverSvd.v -- proofs about TruncatedSVDSolver (C38) and TotalLeastSquaresSolver (C39). *)
From Verif Require Export SolverResid LinSys.
#[local] Open Scope R_scope.

Lemma onf_le k m p q : (m <= p)%nat -> onf k p q -> onf k m q.
Proof. intros H O i j Hi Hj. apply O; lia. Qed.

(* ---- Python slices from the start ---- *)
Lemma py_slice_prefix {A} (l : list A) n : py_slice None (Some n) l = firstn (py_index (length l) n) l.
Proof. unfold py_slice, slice. rewrite Nat.sub_0_r. reflexivity. Qed.
Lemma py_index_le p n : (py_index p n <= p)%nat.
Proof. unfold py_index. apply Nat.le_min_l. Qed.
Lemma nth_firstn_lt {A} (l : list A) m i x : (i < m)%nat -> nth i (firstn m l) x = nth i l x.
Proof. revert l i. induction m as [|m IH]; intros l i H; [lia|]. destruct l as [|a l]; [reflexivity|]. destruct i as [|i]; [reflexivity|]. cbn. apply IH. lia. Qed.

Lemma ts_reach_ok svd s : svd_spec svd -> ts_reach svd s -> forall p, ts_pre s = Some p ->
  exists k d r Phi n, pre_ok svd p k d r Phi /\ ts_modes s = Some n /\ (n <= Z.of_nat (Nat.min k d))%Z.
Proof.
  intros HS H. induction H as [|s D Z s' _ IH HD HZ E|s n _ IH]; intros p Hp.
  - discriminate.
  - unfold ts_fit, bind in E. destruct (svd_fit svd D Z) as [q|] eqn:EF; [|discriminate]. injection E as <-.
    cbn in Hp. injection Hp as <-. destruct (svd_fit_ok svd D Z q HD HZ HS EF) as (_ & _ & k & d & r & Phi & HP).
    exists k, d, r, Phi. eexists. split; [exact HP|]. split; [reflexivity|].
    destruct HP as (Hk & Hd & Hr & HDD & HZZ & ES & EZ). destruct (svd_fun svd k d _ _ _ _ HS Hk Hd HDD ES) as (HPh & _).
    rewrite EZ. rewrite (ncols_is_mat r (Nat.min k d)) by (auto; eapply is_mat_matmul; eauto).
    destruct (Z.ltb_spec (Z.of_nat (Nat.min k d)) (if (match ts_modes s with Some n => n | None => Z.of_nat (Nat.min k d) end <=? 0)%Z
      then (Z.of_nat (Nat.min k d) + match ts_modes s with Some n => n | None => Z.of_nat (Nat.min k d) end)%Z
      else match ts_modes s with Some n => n | None => Z.of_nat (Nat.min k d) end)); lia.
  - assert (Es : ts_pre (fst (ts_set s n)) = ts_pre s).
    { unfold ts_set. destruct n as [n|]; destruct (ts_max s) as [d|]; try reflexivity. destruct (Z.ltb _ _); reflexivity. }
    rewrite Es in Hp. destruct (IH p Hp) as (k & d & r & Phi & n0 & HP & En & Hn). exists k, d, r, Phi.
    assert (Em : ts_max s = Some (Nat.min k d)).
    { unfold ts_max. rewrite Hp. f_equal. destruct HP as (Hk & Hd & Hr & HDD & HZZ & ES & EZ).
      destruct (svd_fun svd k d _ _ _ _ HS Hk Hd HDD ES) as (HPh & _). rewrite EZ.
      apply (ncols_is_mat r); auto. eapply is_mat_matmul; eauto. }
    unfold ts_set. rewrite Em. destruct n as [n|]; [|exists (Z.of_nat (Nat.min k d)); split; [exact HP|split; [reflexivity|lia]]].
    destruct (Z.ltb_spec (Z.of_nat (Nat.min k d)) (if (n <=? 0)%Z then (Z.of_nat (Nat.min k d) + n)%Z else n)).
    + exists n0. auto.
    + eexists. split; [exact HP|]. split; [reflexivity|]. lia.
Qed.

Lemma ts_solve_entries svd s p k d r Phi n O : svd_spec svd -> pre_ok svd p k d r Phi -> ts_pre s = Some p -> ts_modes s = Some n ->
  ts_solve s = Ok O ->
  let m := py_index (Nat.min k d) n in
  is_mat r d O /\ (forall a, (a < m)%nat -> vget (sp_svals p) a <> 0) /\
  forall i l, (i < r)%nat -> (l < d)%nat ->
    mget O i l = comb m (fun a => / vget (sp_svals p) a * ip k (phiF Phi a) (mget (sp_Z p) i)) (psiF (sp_PsiT p)) l.
Proof.
  intros HS HP Hp Hn E m. destruct HP as (Hk & Hd & Hr & HD & HZ & ES & EZ).
  destruct (svd_fun svd k d _ _ _ _ HS Hk Hd HD ES) as (HPh & Hsv & HT & _).
  set (q := Nat.min k d) in *. assert (Hq : (0 < q)%nat) by (unfold q; lia).
  pose proof (py_index_le q n) as Hm. fold m in Hm.
  assert (HZP : is_mat r q (sp_ZPhi p)) by (rewrite EZ; eapply is_mat_matmul; eauto).
  unfold ts_solve in E. rewrite Hp, Hn in E. unfold bind, guard in E.
  rewrite !py_slice_prefix in E. rewrite (is_mat_len _ _ _ HT) in E. unfold is_vec in Hsv. rewrite Hsv in E. fold m in E.
  destruct (existsb _ _) eqn:EX; [discriminate|].
  assert (Hne : forall a, (a < m)%nat -> vget (sp_svals p) a <> 0).
  { intros a Ha Z0. assert (ET : existsb (fun x => if Req_EM_T x 0 then true else false) (firstn m (sp_svals p)) = true); [|congruence].
    apply existsb_exists. exists (vget (sp_svals p) a). split.
    - unfold vget. rewrite <- (nth_firstn_lt _ m) by auto. apply nth_In. rewrite firstn_length. lia.
    - destruct (Req_EM_T _ _); [reflexivity|contradiction]. }
  set (Sn := map2 (fun x row => vscale (/ x) row) (firstn m (sp_svals p)) (firstn m (sp_PsiT p))) in *.
  assert (LSn : length Sn = m).
  { unfold Sn. rewrite map2_length, !firstn_length. rewrite Hsv, (is_mat_len _ _ _ HT). lia. }
  assert (HSn : is_mat m d Sn).
  { split; [exact LSn|]. apply Forall_forall. intros x Hx. apply (In_nth _ _ []) in Hx. destruct Hx as (a & Ha & <-). rewrite LSn in Ha.
    unfold Sn. rewrite (map2_nth _ _ _ a 0 [] []) by (rewrite firstn_length, ?Hsv, ?(is_mat_len _ _ _ HT); lia).
    apply is_vec_vscale. rewrite nth_firstn_lt by auto. apply (is_mat_row q d); auto. lia. }
  assert (ESn : forall a l, (a < m)%nat -> (l < d)%nat -> mget Sn a l = / vget (sp_svals p) a * mget (sp_PsiT p) a l).
  { intros a l Ha Hl. unfold mget at 1, Sn. rewrite (map2_nth _ _ _ a 0 [] []) by (rewrite firstn_length, ?Hsv, ?(is_mat_len _ _ _ HT); lia).
    rewrite !nth_firstn_lt by auto. fold (vget (vscale (/ nth a (sp_svals p) 0) (nth a (sp_PsiT p) [])) l). now rewrite vget_vscale. }
  assert (ZERO : is_mat r d O /\ forall i l, (i < r)%nat -> (l < d)%nat -> mget O i l = bsum m (fun a => mget (sp_ZPhi p) i a * mget Sn a l)).
  { unfold nrows in E. rewrite LSn in E. destruct (Nat.eqb_spec m 0) as [Z0|Hm0].
    - injection E as <-. rewrite (is_mat_len _ _ _ HZP), (ncols_is_mat _ _ _ HT Hq). split; [apply is_mat_mzeros|].
      intros i l _ _. rewrite mget_mzeros, Z0. reflexivity.
    - injection E as <-.
      assert (HZn : is_mat r m (map (py_slice None (Some n)) (sp_ZPhi p))).
      { apply (is_mat_map r m); [apply HZP|]. intros x Hx. rewrite py_slice_prefix.
        destruct HZP as [_ HF]. rewrite Forall_forall in HF. unfold is_vec. rewrite firstn_length, (HF x Hx). fold m. lia. }
      split; [eapply is_mat_matmul; eauto; lia|]. intros i l Hi Hl. rewrite (mget_matmul r m d) by (auto; lia).
      apply bsum_ext. intros a Ha. f_equal. unfold mget. rewrite (nth_map_in _ _ i [] []) by (destruct HZP; lia).
      rewrite py_slice_prefix, (is_mat_row r q _ i HZP Hi). fold m. now rewrite nth_firstn_lt. }
  destruct ZERO as [HO HE]. split; [exact HO|]. split; [exact Hne|].
  intros i l Hi Hl. rewrite HE by auto. unfold comb. apply bsum_ext. intros a Ha. rewrite ESn by auto.
  rewrite EZ, (mget_matmul r k q) by (auto; lia). unfold psiF.
  transitivity (/ vget (sp_svals p) a * bsum k (fun l0 => mget (sp_Z p) i l0 * mget Phi l0 a) * mget (sp_PsiT p) a l); [ring|].
  do 2 f_equal. unfold ip, phiF. apply bsum_ext. intros. ring.
Qed.

Lemma ts_solves svd s D Z O : svd_spec svd -> ts_reach svd s -> odata (ts_pre s) = Some (D, Z) -> ts_solve s = Ok O ->
  let k := nrows D in let d := ncols D in let r := nrows Z in
  exists n, ts_modes s = Some n /\ (n <= Z.of_nat (Nat.min k d))%Z /\
  let m := py_index (Nat.min k d) n in
  exists Dm, is_mat k d Dm /\ rank_at_most k d m Dm /\
    (forall B, is_mat k d B -> rank_at_most k d m B -> dist2 k d D Dm <= dist2 k d D B) /\
    (m = Nat.min k d -> Dm = D) /\
    row_minimizer r d (misfit k d Dm Z) O /\ row_shortest r d (misfit k d Dm Z) O.
Proof.
  intros HS HR HDZ E. destruct (ts_pre s) as [p|] eqn:Hp; [|discriminate].
  assert (HD' : sp_data p = (D, Z)) by (cbn in HDZ; congruence). apply pair_equal_spec in HD'. destruct HD' as [<- <-].
  destruct (ts_reach_ok svd s HS HR p Hp) as (k & d & r & Phi & n & HP & En & Hn).
  destruct (pre_dims _ _ _ _ _ _ HP) as (Ek & Ed & Er). rewrite Ek, Ed, Er. cbv zeta.
  exists n. split; [exact En|]. split; [exact Hn|].
  destruct (ts_solve_entries svd s p k d r Phi n O HS HP Hp En E) as (HO & Hne & HE).
  destruct HP as (Hk & Hd & Hr & HD & HZ & ES & EZ).
  destruct (svd_fun svd k d _ _ _ _ HS Hk Hd HD ES) as (HPh & Hsv & HT & On1 & On2 & Hs0 & Hsd & HA).
  set (q := Nat.min k d) in *. set (m := py_index q n) in *. pose proof (py_index_le q n) as Hm. fold m in Hm.
  set (phi := phiF Phi) in *. set (psi := psiF (sp_PsiT p)) in *. set (sv := vget (sp_svals p)) in *.
  pose proof (onf_le _ _ _ _ Hm On1) as Om1. pose proof (onf_le _ _ _ _ Hm On2) as Om2.
  set (Dm := map (fun t => map (sve m phi sv psi t) (seq 0 d)) (seq 0 k)).
  assert (HDm : is_mat k d Dm) by apply is_mat_tab.
  assert (EDm : forall t l, (t < k)%nat -> (l < d)%nat -> mget Dm t l = sve m phi sv psi t l) by (intros; unfold Dm; now rewrite mget_tab).
  exists Dm. split; [exact HDm|]. split.
  { exists (fun a t => sv a * phi a t), psi. intros t l Ht Hl. rewrite EDm by auto. unfold sve. apply bsum_ext. intros. ring. }
  split.
  { intros B HB (X & Y & HXY).
    assert (E1 : dist2 k d (sp_D p) Dm = fro2 k d (fun t l => sve q phi sv psi t l - sve m phi sv psi t l)).
    { unfold dist2, fro2. apply bsum_ext. intros t Ht. apply bsum_ext. intros l Hl. rewrite HA, EDm by auto. reflexivity. }
    assert (E2 : dist2 k d (sp_D p) B = fro2 k d (fun t l => sve q phi sv psi t l - bsum m (fun a => X a t * Y a l))).
    { unfold dist2, fro2. apply bsum_ext. intros t Ht. apply bsum_ext. intros l Hl. rewrite HA, HXY by auto. reflexivity. }
    rewrite E1, E2, truncation_error by auto. now apply eckart_young. }
  split.
  { intros Em. apply (mat_ext k d); auto. intros t l Ht Hl. rewrite EDm, HA by auto. now rewrite Em. }
  assert (GR : forall i l, (i < r)%nat -> (l < d)%nat -> grad k d (mget Dm) (mget (sp_Z p) i) (mget O i) l = 0).
  { intros i l Hi Hl. set (y := fun a => / sv a * ip k (phi a) (mget (sp_Z p) i)).
    transitivity (grad k d (sve m phi sv psi) (mget (sp_Z p) i) (comb m y psi) l).
    - unfold grad. apply bsum_ext. intros t Ht. rewrite EDm by auto. f_equal. unfold resid. f_equal.
      apply bsum_ext. intros j Hj. rewrite EDm, HE by auto. reflexivity.
    - rewrite sve_grad by auto. apply bsum_0. intros a Ha. unfold y. specialize (Hne a Ha). fold (sv a) in Hne. field. exact Hne. }
  assert (EX : forall O' i, (i < r)%nat -> misfit k d Dm (sp_Z p) O' i = misfit k d Dm (sp_Z p) O i + lsq k d (mget Dm) zf (fun l => mget O' i l - mget O i l)).
  { intros O' i Hi. rewrite !misfit_lsq, (lsq_expand k d (mget Dm) (mget (sp_Z p) i) (mget O i) (mget O' i)).
    rewrite (bsum_0 d (fun l => (mget O' i l - mget O i l) * grad k d (mget Dm) (mget (sp_Z p) i) (mget O i) l)); [ring|].
    intros l Hl. rewrite GR by auto. ring. }
  split.
  - split; [exact HO|]. intros O' i HO' Hi. rewrite (EX O' i Hi).
    pose proof (lsq_nonneg k d (mget Dm) zf (fun l => mget O' i l - mget O i l)). lra.
  - intros O' i HO' Hi Hle. rewrite (EX O' i Hi) in Hle. set (dl := fun l => mget O' i l - mget O i l) in *.
    pose proof (lsq_nonneg k d (mget Dm) zf dl) as H0. assert (L0 : lsq k d (mget Dm) zf dl = 0) by lra.
    assert (T0 : forall t, (t < k)%nat -> comb m (fun a => sv a * ip d (psi a) dl) phi t = 0).
    { intros t Ht. apply (bsum_nonneg_0 k _) with (i := t) in L0; auto; [|intros; apply sq_nonneg]. apply sq_0 in L0.
      unfold resid, zf in L0. rewrite Rminus_0_r in L0. rewrite <- L0.
      rewrite (bsum_ext d _ (fun l => bsum m (fun a => sv a * phi a t * (psi a l * dl l)))).
      2:{ intros l Hl. rewrite EDm by auto. unfold sve. rewrite <- bsum_scal_r. apply bsum_ext. intros. ring. }
      rewrite bsum_swap. unfold comb. apply bsum_ext. intros a Ha. rewrite bsum_scal_l. unfold ip. ring. }
    assert (P0 : forall a, (a < m)%nat -> ip d (psi a) dl = 0).
    { intros a Ha. pose proof (ip_comb_on k m (fun a => sv a * ip d (psi a) dl) phi a Om1 Ha) as Q. cbv beta in Q.
      unfold ip at 1 in Q. rewrite bsum_0 in Q by (intros t Ht; rewrite T0 by auto; ring).
      symmetry in Q. apply Rmult_integral in Q. destruct Q as [Q|Q]; auto. now elim (Hne a Ha). }
    change (nrm2 d (mget O i) <= nrm2 d (mget O' i)). rewrite (nrm2_expand d (mget O i) (mget O' i)).
    assert (X0 : bsum d (fun l => (mget O' i l - mget O i l) * mget O i l) = 0).
    { change (ip d dl (mget O i) = 0).
      rewrite (ip_ext d dl dl (mget O i) (comb m (fun a => / sv a * ip k (phi a) (mget (sp_Z p) i)) psi)) by (auto; intros; apply HE; auto).
      rewrite ip_comm, ip_comb_l. apply bsum_0. intros a Ha. rewrite P0 by auto. ring. }
    rewrite X0. pose proof (nrm2_nonneg d dl). unfold dl in H. lra.
Qed.

Lemma ts_defined svd s D Z n : svd_spec svd -> ts_reach svd s -> odata (ts_pre s) = Some (D, Z) -> ts_modes s = Some n ->
  rank_at_most (nrows D) (ncols D) (py_index (Nat.min (nrows D) (ncols D)) n - 1) D \/ exists O, ts_solve s = Ok O.
Proof.
  intros HS HR HDZ En. destruct (ts_pre s) as [p|] eqn:Hp; [|discriminate].
  assert (HD' : sp_data p = (D, Z)) by (cbn in HDZ; congruence). apply pair_equal_spec in HD'. destruct HD' as [<- <-].
  destruct (ts_reach_ok svd s HS HR p Hp) as (k & d & r & Phi & n' & HP & En' & Hn).
  assert (n' = n) by congruence. subst n'.
  destruct (pre_dims _ _ _ _ _ _ HP) as (Ek & Ed & Er). rewrite Ek, Ed.
  destruct HP as (Hk & Hd & Hr & HD & HZ & ES & EZ).
  destruct (svd_fun svd k d _ _ _ _ HS Hk Hd HD ES) as (HPh & Hsv & HT & On1 & On2 & Hs0 & Hsd & HA).
  set (q := Nat.min k d) in *. set (m := py_index q n). pose proof (py_index_le q n) as Hm. fold m in Hm.
  unfold ts_solve. rewrite Hp, En. unfold bind, guard. rewrite !py_slice_prefix. unfold is_vec in Hsv. rewrite Hsv. fold m.
  destruct (existsb _ _) eqn:EX.
  - left. apply existsb_exists in EX. destruct EX as (x & Hx & Hx0). destruct (Req_EM_T x 0) as [->|]; [|discriminate].
    apply (In_nth _ _ 0) in Hx. destruct Hx as (a & Ha & Ex). rewrite firstn_length, Hsv in Ha.
    rewrite nth_firstn_lt in Ex by lia. fold (vget (sp_svals p) a) in Ex.
    exists (fun b t => vget (sp_svals p) b * phiF Phi b t), (psiF (sp_PsiT p)). intros t l Ht Hl. rewrite HA by auto.
    unfold sve. replace q with ((m - 1) + (q - (m - 1)))%nat by lia. rewrite bsum_split.
    rewrite (bsum_0 (q - (m - 1))).
    + rewrite Rplus_0_r. apply bsum_ext. intros. ring.
    + intros b Hb. assert (V0 : vget (sp_svals p) (m - 1 + b) = 0); [|rewrite V0; ring].
      apply Rle_antisym; [|apply Hs0; lia]. rewrite <- Ex. apply Hsd; lia.
  - right. destruct (_ =? 0)%nat; eauto.
Qed.

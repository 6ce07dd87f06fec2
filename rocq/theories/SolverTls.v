(* SolverTls.v -- proofs about TotalLeastSquaresSolver (C39). *)
From Verif Require Export SolverSvd.
#[local] Open Scope R_scope.

Lemma nth_skipn_plus {A} (l : list A) d i x : nth i (skipn d l) x = nth (d + i) l x.
Proof. revert l. induction d as [|d IH]; intros l; [reflexivity|]. destruct l as [|a l]; [destruct i; reflexivity|]. cbn [skipn Nat.add nth]. apply IH. Qed.

Lemma skipn_rows r c d A : is_mat (d + r) c A -> is_mat r c (skipn d A).
Proof.
  intros [HL HF]. split; [rewrite skipn_length; lia|]. apply Forall_forall. intros x Hx. rewrite Forall_forall in HF. apply HF.
  rewrite <- (firstn_skipn d A). apply in_or_app. now right.
Qed.

Section Fn.
Variables (k d r : nat) (phi psi : nat -> nat -> R) (s : nat -> R) (X : nat -> nat -> R).
Hypothesis On1 : onf k (d + r) phi.
Hypothesis On2 : onf (d + r) (d + r) psi.
Hypothesis HX : forall b l, (b < r)%nat -> (l < d)%nat -> bsum r (fun c => psi (d + b)%nat (d + c)%nat * X c l) = psi (d + b)%nat l.

Lemma tls_kernel a c : (a < d)%nat -> (c < r)%nat -> bsum d (fun l => psi a l * - X c l) = psi a (d + c)%nat.
Proof.
  intros Ha Hc.
  set (ZZ := fun b c => psi (d + b)%nat (d + c)%nat).
  set (P := fun c b => bsum d (fun l => X c l * psi (d + b)%nat l) + ZZ b c).
  assert (ORT : forall a b, (a < d + r)%nat -> (b < r)%nat ->
     bsum d (fun l => psi a l * psi (d + b)%nat l) + bsum r (fun c => psi a (d + c)%nat * psi (d + b)%nat (d + c)%nat) = dlt a (d + b)).
  { intros a' b Ha' Hb. rewrite <- (On2 a' (d + b)%nat) by lia. unfold ip. now rewrite bsum_split. }
  assert (RI : forall b b', (b < r)%nat -> (b' < r)%nat -> bsum r (fun c => ZZ b c * P c b') = dlt b b').
  { intros b b' Hb Hb'. unfold P.
    rewrite (bsum_ext r _ (fun c => bsum d (fun l => ZZ b c * X c l * psi (d + b')%nat l) + ZZ b c * ZZ b' c)).
    2:{ intros c' Hc'. rewrite Rmult_plus_distr_l, <- bsum_scal_l. f_equal. apply bsum_ext. intros. ring. }
    rewrite bsum_plus, bsum_swap.
    rewrite (bsum_ext d _ (fun l => psi (d + b)%nat l * psi (d + b')%nat l)).
    2:{ intros l Hl. rewrite bsum_scal_r. unfold ZZ. now rewrite HX. }
    unfold ZZ. rewrite ORT by lia. unfold dlt. destruct (Nat.eqb_spec b b') as [->|]; [now rewrite Nat.eqb_refl|].
    now rewrite (proj2 (Nat.eqb_neq (d + b) (d + b'))) by lia. }
  pose proof (right_inverse_kernel r ZZ P RI (fun c => bsum d (fun l => psi a l * X c l) + psi a (d + c)%nat)) as K. cbv beta in K.
  assert (bsum d (fun l => psi a l * X c l) + psi a (d + c)%nat = 0).
  { apply K; auto. intros b Hb.
    rewrite (bsum_ext r _ (fun c => bsum d (fun l => psi a l * (ZZ b c * X c l)) + psi a (d + c)%nat * ZZ b c)).
    2:{ intros c' Hc'. rewrite Rmult_plus_distr_l, <- bsum_scal_l. f_equal; [apply bsum_ext; intros; ring|ring]. }
    rewrite bsum_plus, bsum_swap.
    rewrite (bsum_ext d _ (fun l => psi a l * psi (d + b)%nat l)).
    2:{ intros l Hl. rewrite bsum_scal_l. unfold ZZ. now rewrite HX. }
    unfold ZZ. rewrite ORT by lia. apply dlt_ne. lia. }
  rewrite (bsum_ext d _ (fun l => - (psi a l * X c l))) by (intros; ring). rewrite bsum_opp. lra.
Qed.

Lemma tls_consistent t c : (c < r)%nat -> bsum d (fun l => sve d phi s psi t l * - X c l) = sve d phi s psi t (d + c)%nat.
Proof.
  intros Hc. unfold sve.
  rewrite (bsum_ext d _ (fun l => bsum d (fun i => s i * phi i t * (psi i l * - X c l)))).
  2:{ intros l Hl. rewrite <- bsum_scal_r. apply bsum_ext. intros. ring. }
  rewrite bsum_swap. apply bsum_ext. intros i Hi. rewrite bsum_scal_l, tls_kernel by auto. ring.
Qed.
End Fn.

Lemma sve_tail d r phi s psi t j :
  sve (d + r) phi s psi t j - sve d phi s psi t j = bsum r (fun b => s (d + b)%nat * (phi (d + b)%nat t * psi (d + b)%nat j)).
Proof. unfold sve. rewrite bsum_split. ring. Qed.

Lemma pert2_fro2 k d r E F : pert2 k d r E F = fro2 k (d + r) (fun t j => if (j <? d)%nat then mget E t j else mget F t (j - d)).
Proof.
  unfold pert2, fro2. apply bsum_ext. intros t Ht. rewrite bsum_split. f_equal; apply bsum_ext; intros l Hl.
  - rewrite (proj2 (Nat.ltb_lt l d)) by auto. reflexivity.
  - rewrite (proj2 (Nat.ltb_ge (d + l) d)) by lia. replace (d + l - d)%nat with l by lia. reflexivity.
Qed.

Lemma tls_solves svd slv s D0 Z0 s' : svd_spec svd -> solve_spec slv -> good_arr D0 -> good_arr Z0 ->
  tls_fit svd slv s D0 Z0 = (s', Ok tt) ->
  exists D Z O e, tl_data s' = Some (D, Z) /\ D0 = M D /\ Z = atleast_2d Z0 /\ tls_solve s' = Ok O /\ tls_error s' = Ok e /\
  let k := nrows D in let d := ncols D in let r := nrows Z in
  (d + r <= k)%nat /\ is_mat r d O /\ 0 <= e /\
  (exists E F, is_mat k d E /\ is_mat k r F /\ consistent k d r D Z E F O /\ pert2 k d r E F = e * e) /\
  (forall O' E' F', consistent k d r D Z E' F' O' -> e * e <= pert2 k d r E' F').
Proof.
  intros HV HS HD0 HZ0 E. unfold tls_fit in E. destruct (base_fit D0 Z0) as [[D Z]|] eqn:EB; [|discriminate].
  destruct (base_fit_ok _ _ _ _ HD0 HZ0 EB) as (ED0 & EZ0 & k & d & r & HDm).
  pose proof (dims_eq D Z k d r HDm) as (Ek & Ed & Er). rewrite Ek, Ed, Er in E. cbv zeta in E.
  destruct HDm as (Hk & Hd & Hr & HD & HZ).
  destruct (Nat.ltb_spec k (d + r)) as [|Hkd]; [discriminate|].
  unfold bind in E.
  destruct (svd (hcat D (mT Z))) as [[[Phi sv] PsiT]|] eqn:ES; [|discriminate].
  destruct (rmax sv) as [mx|]; [|discriminate]. destruct (rmin sv) as [mn|]; [|discriminate].
  destruct (slv _ _) as [X|] eqn:EX; [|discriminate].
  apply pair_equal_spec in E. destruct E as [<- _].
  set (ZZ := map (skipn d) (skipn d PsiT)) in *. set (DZ := map (firstn d) (skipn d PsiT)) in *.
  set (PS := map (fun row => vmul (skipn d row) (skipn d sv)) Phi) in *.
  exists D, Z, (mscale (-1) X), (sqrt (mnorm2 (mscale (-1) (matmul PS (hcat ZZ DZ))))).
  do 5 (split; [first [reflexivity | assumption]|]). rewrite Ek, Ed, Er. cbv zeta. split; [exact Hkd|].
  assert (HZt : is_mat k r (mT Z)) by now apply is_mat_mT.
  assert (HC : is_mat k (d + r) (hcat D (mT Z))) by now apply is_mat_hcat.
  destruct (svd_fun svd k (d + r) _ _ _ _ HV Hk ltac:(lia) HC ES) as (HPh & Hsv & HT & On1 & On2 & Hs0 & Hsd & HA).
  rewrite Nat.min_r in * by lia.
  set (phi := phiF Phi) in *. set (psi := psiF PsiT) in *. set (sf := vget sv) in *.
  assert (HT2 : is_mat r (d + r) (skipn d PsiT)) by (apply skipn_rows; exact HT).
  assert (HZZ : is_mat r r ZZ).
  { unfold ZZ. apply (is_mat_map r r); [apply HT2|]. intros x Hx. destruct HT2 as [_ HF]. rewrite Forall_forall in HF.
    unfold is_vec. rewrite skipn_length, (HF x Hx). lia. }
  assert (HDZ : is_mat r d DZ).
  { unfold DZ. apply (is_mat_map r d); [apply HT2|]. intros x Hx. destruct HT2 as [_ HF]. rewrite Forall_forall in HF.
    unfold is_vec. rewrite firstn_length, (HF x Hx). lia. }
  assert (EZZ : forall b c, (b < r)%nat -> mget ZZ b c = psi (d + b)%nat (d + c)%nat).
  { intros b c Hb. unfold mget, ZZ. rewrite (nth_map_in (skipn d) _ b [] []) by (destruct HT2; lia).
    now rewrite !nth_skipn_plus. }
  assert (EDZ : forall b l, (b < r)%nat -> (l < d)%nat -> mget DZ b l = psi (d + b)%nat l).
  { intros b l Hb Hl. unfold mget, DZ. rewrite (nth_map_in (firstn d) _ b [] []) by (destruct HT2; lia).
    rewrite nth_firstn_lt by auto. now rewrite nth_skipn_plus. }
  destruct (HS r d ZZ DZ X HZZ HDZ EX) as [HX EXM].
  assert (HXF : forall b l, (b < r)%nat -> (l < d)%nat -> bsum r (fun c => psi (d + b)%nat (d + c)%nat * mget X c l) = psi (d + b)%nat l).
  { intros b l Hb Hl. rewrite <- EDZ by auto. rewrite <- EXM, (mget_matmul r r d) by auto. apply bsum_ext. intros c Hc. now rewrite EZZ. }
  assert (EO : forall c l, mget (mscale (-1) X) c l = - mget X c l) by (intros; rewrite (mget_mscale r d) by auto; ring).
  assert (HPS : is_mat k r PS).
  { unfold PS. apply (is_mat_map k r); [apply HPh|]. intros x Hx. destruct HPh as [_ HF]. rewrite Forall_forall in HF.
    apply is_vec_vmul; unfold is_vec in *; rewrite skipn_length, ?(HF x Hx), ?Hsv; lia. }
  assert (EPS : forall t b, (t < k)%nat -> (b < r)%nat -> mget PS t b = phi (d + b)%nat t * sf (d + b)%nat).
  { intros t b Ht Hb. unfold mget at 1, PS. rewrite (nth_map_in _ Phi t [] []) by (destruct HPh; lia).
    pose proof (is_mat_row _ _ _ _ HPh Ht) as Hrow.
    change (vget (vmul (skipn d (nth t Phi [])) (skipn d sv)) b = phi (d + b)%nat t * sf (d + b)%nat).
    rewrite (vget_vmul r) by (unfold is_vec in *; rewrite skipn_length, ?Hrow, ?Hsv; lia).
    unfold vget. rewrite !nth_skipn_plus. reflexivity. }
  assert (HH : is_mat r (r + d) (hcat ZZ DZ)) by now apply is_mat_hcat.
  assert (HM : is_mat k (r + d) (matmul PS (hcat ZZ DZ))) by (eapply is_mat_matmul; eauto).
  assert (NE : mnorm2 (mscale (-1) (matmul PS (hcat ZZ DZ)))
             = fro2 k (d + r) (fun t j => sve (d + r) phi sf psi t j - sve d phi sf psi t j)).
  { rewrite (mnorm2_bsum k (r + d)) by now apply is_mat_mscale. unfold fro2. apply bsum_ext. intros t Ht.
    rewrite (bsum_split r d), (bsum_split d r). rewrite Rplus_comm. f_equal; apply bsum_ext; intros j Hj.
    - assert (EE : mget (mscale (-1) (matmul PS (hcat ZZ DZ))) t (r + j) = - (sve (d + r) phi sf psi t j - sve d phi sf psi t j)).
      { rewrite (mget_mscale k (r + d)) by auto. rewrite (mget_matmul k r (r + d)) by (auto; lia). rewrite sve_tail.
        rewrite (bsum_ext r _ (fun b => sf (d + b)%nat * (phi (d + b)%nat t * psi (d + b)%nat j))); [ring|].
        intros b Hb. rewrite EPS, (mget_hcat r r d) by auto. rewrite (proj2 (Nat.ltb_ge (r + j) r)) by lia.
        replace (r + j - r)%nat with j by lia. rewrite EDZ by auto. ring. }
      rewrite EE. ring.
    - assert (EE : mget (mscale (-1) (matmul PS (hcat ZZ DZ))) t j = - (sve (d + r) phi sf psi t (d + j) - sve d phi sf psi t (d + j))).
      { rewrite (mget_mscale k (r + d)) by auto. rewrite (mget_matmul k r (r + d)) by (auto; lia). rewrite sve_tail.
        rewrite (bsum_ext r _ (fun b => sf (d + b)%nat * (phi (d + b)%nat t * psi (d + b)%nat (d + j)%nat))); [ring|].
        intros b Hb. rewrite EPS, (mget_hcat r r d) by auto. rewrite (proj2 (Nat.ltb_lt j r)) by lia.
        rewrite EZZ by auto. ring. }
      rewrite EE. ring. }
  assert (N0 : 0 <= mnorm2 (mscale (-1) (matmul PS (hcat ZZ DZ)))) by apply mnorm2_nonneg.
  assert (CD : forall t l, (t < k)%nat -> (l < d)%nat -> mget D t l = sve (d + r) phi sf psi t l).
  { intros t l Ht Hl. rewrite <- HA by lia. rewrite (mget_hcat k d r) by auto. now rewrite (proj2 (Nat.ltb_lt l d)) by auto. }
  assert (CZ : forall t c, (t < k)%nat -> (c < r)%nat -> mget Z c t = sve (d + r) phi sf psi t (d + c)).
  { intros t c Ht Hc. rewrite <- HA by lia. rewrite (mget_hcat k d r) by auto. rewrite (proj2 (Nat.ltb_ge (d + c) d)) by lia.
    replace (d + c - d)%nat with c by lia. now rewrite (mget_mT r k). }
  split; [now apply is_mat_mscale|]. split; [apply sqrt_pos|].
  rewrite sqrt_sqrt by exact N0. rewrite NE. split.
  - exists (map (fun t => map (fun l => sve d phi sf psi t l - mget D t l) (seq 0 d)) (seq 0 k)),
           (map (fun t => map (fun c => sve d phi sf psi t (d + c) - mget Z c t) (seq 0 r)) (seq 0 k)).
    split; [apply is_mat_tab|]. split; [apply is_mat_tab|]. split.
    + intros t c Ht Hc. rewrite mget_tab by auto.
      rewrite (bsum_ext d _ (fun l => sve d phi sf psi t l * - mget X c l)).
      2:{ intros l Hl. rewrite mget_tab by auto. rewrite EO. ring. }
      rewrite (tls_consistent d r phi psi sf (mget X)) by auto. ring.
    + rewrite pert2_fro2. unfold fro2. apply bsum_ext. intros t Ht. apply bsum_ext. intros j Hj.
      destruct (Nat.ltb_spec j d) as [Hjd|Hjd].
      * rewrite mget_tab by auto. rewrite CD by auto. ring.
      * rewrite mget_tab by lia. rewrite CZ by lia. replace (d + (j - d))%nat with j by lia. ring.
  - intros O' E' F' HC'. rewrite truncation_error by (auto; lia). rewrite pert2_fro2.
    eapply Rle_trans; [apply (eckart_young k (d + r) (d + r) d phi sf psi (fun l t => mget D t l + mget E' t l)
       (fun l j => if (j <? d)%nat then dlt l j else mget O' (j - d) l)); auto; lia|].
    right. unfold fro2. apply bsum_ext. intros t Ht. apply bsum_ext. intros j Hj.
    destruct (Nat.ltb_spec j d) as [Hjd|Hjd].
    + rewrite <- CD by auto.
      rewrite (bsum_ext d _ (fun a => dlt a j * (mget D t a + mget E' t a))) by (intros; ring). rewrite bsum_dlt by auto. ring.
    + replace j with (d + (j - d))%nat by lia. rewrite <- CZ by lia. replace (d + (j - d) - d)%nat with (j - d)%nat by lia.
      rewrite (HC' t (j - d)%nat) by lia. ring.
Qed.
Lemma tls_small svd slv s D0 Z0 D Z : base_fit D0 Z0 = Ok (D, Z) -> (nrows D < ncols D + nrows Z)%nat ->
  snd (tls_fit svd slv s D0 Z0) = Err ValueError.
Proof. intros E H. unfold tls_fit. rewrite E. cbv zeta. rewrite (proj2 (Nat.ltb_lt _ _) H). reflexivity. Qed.

(* SolverProofs.v -- proofs about the least-squares solvers (C35, C36). *)
From Verif Require Export SpecLstsq LsqCore MatAlg.
#[local] Open Scope R_scope.

Lemma misfit_lsq k d D Z O i : misfit k d D Z O i = lsq k d (mget D) (mget Z i) (mget O i).
Proof. reflexivity. Qed.
Lemma ridge_nrm2 d lam O i : ridge d lam O i = lam * lam * nrm2 d (mget O i).
Proof. reflexivity. Qed.
Lemma tikpen_lsq d G O i : tikpen d G O i = lsq d d (mget G) zf (mget O i).
Proof. unfold tikpen, lsq, resid, zf. apply bsum_ext. intros a Ha. now rewrite Rminus_0_r. Qed.

(* ---- a matrix with one prescribed row ---- *)
Lemma is_vec_vget n f : is_vec n (map f (seq 0 n)). Proof. apply is_vec_tab. Qed.

(* ---- reading the SVD ---- *)
Definition phiF (Phi : mat) (a t : nat) : R := mget Phi t a.
Definition psiF (PsiT : mat) (a l : nat) : R := mget PsiT a l.
Lemma svd_fun svd k d A Phi s PsiT : svd_spec svd -> (0 < k)%nat -> (0 < d)%nat -> is_mat k d A -> svd A = Ok (Phi, s, PsiT) ->
  let p := Nat.min k d in
  is_mat k p Phi /\ is_vec p s /\ is_mat p d PsiT /\ onf k p (phiF Phi) /\ onf d p (psiF PsiT) /\
  (forall i, (i < p)%nat -> 0 <= vget s i) /\ (forall i j, (i <= j)%nat -> (j < p)%nat -> vget s j <= vget s i) /\
  (forall t l, (t < k)%nat -> (l < d)%nat -> mget A t l = sve p (phiF Phi) (vget s) (psiF PsiT) t l).
Proof.
  intros H Hk Hd HA E p. destruct (H k d A Phi s PsiT Hk Hd HA E) as (H1 & H2 & H3 & H4 & H5 & H6 & H7 & H8).
  do 3 (split; [assumption|]). split; [|split; [|split; [|split]]]; auto.
Qed.

Definition pre_ok (svd : mat -> res (mat * vec * mat)) (p : svdpre) (k d r : nat) (Phi : mat) : Prop :=
  (0 < k)%nat /\ (0 < d)%nat /\ (0 < r)%nat /\ is_mat k d (sp_D p) /\ is_mat r k (sp_Z p) /\
  svd (sp_D p) = Ok (Phi, sp_svals p, sp_PsiT p) /\ sp_ZPhi p = matmul (sp_Z p) Phi.

Lemma base_fit_ok D Z D' Z' : good_arr D -> good_arr Z -> base_fit D Z = Ok (D', Z') ->
  D = M D' /\ Z' = atleast_2d Z /\
  exists k d r, (0 < k)%nat /\ (0 < d)%nat /\ (0 < r)%nat /\ is_mat k d D' /\ is_mat r k Z'.
Proof.
  intros HD HZ E. destruct D as [v|m]; [discriminate|]. cbn [base_fit] in E.
  destruct (Nat.eqb_spec (ncols (atleast_2d Z)) (nrows m)) as [En|]; [|discriminate].
  injection E as <- <-. split; [reflexivity|]. split; [reflexivity|].
  destruct HD as (k & d & Hk & Hd & Hm). unfold nrows in En. rewrite (is_mat_len _ _ _ Hm) in En.
  destruct Z as [v|z]; cbn [atleast_2d] in *.
  - exists k, d, 1%nat. repeat split; auto; try lia; try apply Hm.
  - destruct HZ as (r & c & Hr & Hc & Hz). rewrite (ncols_is_mat _ _ _ Hz Hr) in En. subst c.
    exists k, d, r. auto 10.
Qed.

Lemma svd_fit_ok svd D Z p : good_arr D -> good_arr Z -> svd_spec svd -> svd_fit svd D Z = Ok p ->
  D = M (sp_D p) /\ sp_Z p = atleast_2d Z /\ exists k d r Phi, pre_ok svd p k d r Phi.
Proof.
  intros HD HZ HS E. unfold svd_fit, bind in E.
  destruct (base_fit D Z) as [[D' Z']|] eqn:EB; [|discriminate]. cbn [fst snd] in E.
  destruct (base_fit_ok _ _ _ _ HD HZ EB) as (-> & -> & k & d & r & Hk & Hd & Hr & HD' & HZ').
  destruct (svd D') as [[[Phi sv] PsiT]|] eqn:ES; [|discriminate].
  destruct (matmul_r (atleast_2d Z) Phi) as [ZP|] eqn:EM; [|discriminate].
  injection E as <-. cbn [sp_D sp_Z]. split; [reflexivity|]. split; [reflexivity|].
  exists k, d, r, Phi. unfold matmul_r in EM. destruct (ncols (atleast_2d Z) =? nrows Phi)%nat; [|discriminate].
  injection EM as <-. repeat split; auto; try apply HD'; try apply HZ'.
Qed.

(* ---- the L2 weights ---- *)
Lemma mapM_nth {A B} (f : A -> res B) l r : mapM f l = Ok r ->
  length r = length l /\ forall i a b, (i < length l)%nat -> f (nth i l a) = Ok (nth i r b).
Proof.
  revert r. induction l as [|x l IH]; cbn [mapM]; intros r E.
  - injection E as <-. split; [reflexivity|]. intros i a b Hi. cbn in Hi. lia.
  - destruct (f x) as [y|] eqn:Ef; [|discriminate]. destruct (mapM f l) as [r'|] eqn:Er; [|discriminate].
    injection E as <-. destruct (IH r' eq_refl) as [IL IN]. split; [cbn; lia|].
    intros [|i] a b Hi; cbn in *; [exact Ef|]. apply IN. lia.
Qed.
Lemma mapM_ok {A B} (f : A -> res B) l : (forall x, In x l -> exists y, f x = Ok y) -> exists r, mapM f l = Ok r.
Proof.
  induction l as [|x l IH]; intros H; cbn [mapM]; [eauto|].
  destruct (H x (or_introl eq_refl)) as [y ->]. destruct IH as [r ->]; [intros; apply H; now right|]. eauto.
Qed.

Lemma l2_weights_ok s lam w p : is_vec p s -> l2_weights s lam = Ok w ->
  is_vec p w /\ forall a, (a < p)%nat -> vget s a * vget s a + lam * lam <> 0 /\ vget w a = vget s a / (vget s a * vget s a + lam * lam).
Proof.
  intros Hs E. apply mapM_nth in E. destruct E as [EL EN]. split; [unfold is_vec in *; congruence|].
  intros a Ha. specialize (EN a 0 0). unfold is_vec in Hs. rewrite Hs in EN. specialize (EN Ha). fold (vget s a) in EN.
  destruct (Req_EM_T _ _) as [|Hn]; [discriminate|]. injection EN as EN. split; [exact Hn|]. symmetry. exact EN.
Qed.
Lemma l2_weights_total s lam : lam <> 0 -> exists w, l2_weights s lam = Ok w.
Proof.
  intros H. apply mapM_ok. intros x _. destruct (Req_EM_T _ _) as [E|]; [|eauto].
  exfalso. assert (0 <= x * x) by apply Rle_0_sqr. assert (0 < lam * lam) by (apply Rsqr_pos_lt; auto). lra.
Qed.

(* entries of the L2 solution *)
Lemma l2_core_ok svd p k d r Phi regs O : svd_spec svd -> pre_ok svd p k d r Phi -> length regs = r -> l2_core p regs = Ok O ->
  is_mat r d O /\ forall i, (i < r)%nat ->
    (forall a, (a < Nat.min k d)%nat -> vget (sp_svals p) a * vget (sp_svals p) a + vget regs i * vget regs i <> 0) /\
    forall l, (l < d)%nat -> mget O i l =
      comb (Nat.min k d) (fun a => vget (sp_svals p) a / (vget (sp_svals p) a * vget (sp_svals p) a + vget regs i * vget regs i)
                                   * ip k (phiF Phi a) (mget (sp_Z p) i)) (psiF (sp_PsiT p)) l.
Proof.
  intros HS (Hk & Hd & Hr & HD & HZ & ES & EZ) HL E. unfold l2_core, bind in E.
  destruct (svd_fun svd k d _ _ _ _ HS Hk Hd HD ES) as (HP & Hsv & HT & _).
  set (q := Nat.min k d) in *. assert (Hq : (0 < q)%nat) by (unfold q; lia).
  destruct (mapM _ regs) as [W|] eqn:EW; [|discriminate]. apply mapM_nth in EW. destruct EW as [EWL EWN].
  assert (HZP : is_mat r q (sp_ZPhi p)) by (rewrite EZ; eapply is_mat_matmul; eauto).
  assert (En : (length W =? nrows (sp_ZPhi p))%nat = true).
  { apply Nat.eqb_eq. unfold nrows. rewrite (is_mat_len _ _ _ HZP). congruence. }
  cbv zeta in E. rewrite En in E. injection E as <-.
  assert (HW : is_mat r q W).
  { split; [congruence|]. apply Forall_forall. intros w Hw. apply (In_nth _ _ []) in Hw. destruct Hw as (i & Hi & <-).
    rewrite EWL in Hi. specialize (EWN i 0 [] Hi). apply (l2_weights_ok _ _ _ q Hsv) in EWN. apply EWN. }
  assert (HZW : is_mat r q (map2 vmul (sp_ZPhi p) W)).
  { apply (is_mat_map2 r q q q); auto. intros. now apply is_vec_vmul. }
  split; [eapply is_mat_matmul; eauto|].
  intros i Hi. specialize (EWN i 0 [] ltac:(lia)). fold (vget regs i) in EWN.
  destruct (l2_weights_ok _ _ _ q Hsv EWN) as [HWi EWi].
  split; [intros; now apply EWi|].
  intros l Hl. rewrite (mget_matmul r q d) by auto. unfold comb. apply bsum_ext. intros a Ha.
  unfold psiF. f_equal.
  unfold mget at 1. rewrite (map2_nth vmul _ _ i [] [] []) by (destruct HZP, HW; lia).
  fold (vget (vmul (nth i (sp_ZPhi p) []) (nth i W [])) a).
  rewrite (vget_vmul q) by (first [exact HWi | eapply is_mat_row; eauto]).
  destruct (EWi a Ha) as [_ ->]. fold (mget (sp_ZPhi p) i a).
  rewrite (Rmult_comm (mget (sp_ZPhi p) i a)). f_equal. rewrite EZ, (mget_matmul r k q) by auto. unfold ip, phiF. apply bsum_ext. intros. ring.
Qed.

Definition l2obj (k d : nat) (D Z : mat) (lam : nat -> R) (O : mat) (i : nat) : R := misfit k d D Z O i + ridge d (lam i) O i.

(* the gradient of the objective vanishes at the L2 solution *)
Lemma l2_core_grad svd p k d r Phi regs O : svd_spec svd -> pre_ok svd p k d r Phi -> length regs = r -> l2_core p regs = Ok O ->
  forall i l, (i < r)%nat -> (l < d)%nat ->
    grad k d (mget (sp_D p)) (mget (sp_Z p) i) (mget O i) l + vget regs i * vget regs i * mget O i l = 0.
Proof.
  intros HS HP HL E i l Hi Hl.
  destruct (l2_core_ok svd p k d r Phi regs O HS HP HL E) as [HO HE]. specialize (HE i Hi). destruct HE as [Hne HE].
  destruct HP as (Hk & Hd & Hr & HD & HZ & ES & EZ).
  destruct (svd_fun svd k d _ _ _ _ HS Hk Hd HD ES) as (HPh & Hsv & HT & On1 & On2 & _ & _ & HA).
  set (q := Nat.min k d) in *. set (phi := phiF Phi) in *. set (psi := psiF (sp_PsiT p)) in *. set (s := vget (sp_svals p)) in *.
  set (lam := vget regs i) in *. set (y := fun a => s a / (s a * s a + lam * lam) * ip k (phi a) (mget (sp_Z p) i)).
  assert (EG : grad k d (mget (sp_D p)) (mget (sp_Z p) i) (mget O i) l = grad k d (sve q phi s psi) (mget (sp_Z p) i) (comb q y psi) l).
  { unfold grad. apply bsum_ext. intros t Ht. rewrite HA by auto. f_equal. unfold resid. f_equal.
    apply bsum_ext. intros l' Hl'. rewrite HA, HE by auto. reflexivity. }
  rewrite EG, sve_grad by auto. rewrite (HE l Hl). fold y. unfold comb. rewrite <- bsum_scal_l, <- bsum_plus.
  apply bsum_0. intros a Ha. unfold y. specialize (Hne a Ha). field. exact Hne.
Qed.

Lemma l2_core_min svd p k d r Phi regs O : svd_spec svd -> pre_ok svd p k d r Phi -> length regs = r -> l2_core p regs = Ok O ->
  row_minimizer r d (l2obj k d (sp_D p) (sp_Z p) (vget regs)) O /\
  ((forall i, (i < r)%nat -> vget regs i <> 0) -> row_unique r d (l2obj k d (sp_D p) (sp_Z p) (vget regs)) O).
Proof.
  intros HS HP HL E.
  assert (HO : is_mat r d O) by apply (l2_core_ok svd p k d r Phi regs O HS HP HL E).
  pose proof (l2_core_grad svd p k d r Phi regs O HS HP HL E) as HG.
  split.
  - split; [exact HO|]. intros O' i HO' Hi. unfold l2obj. rewrite !misfit_lsq, !ridge_nrm2.
    rewrite (ridge_min k d (mget (sp_D p)) (mget (sp_Z p) i) (vget regs i) (mget O i) (fun l Hl => HG i l Hi Hl) (mget O' i)).
    pose proof (lsq_nonneg k d (mget (sp_D p)) zf (fun l => mget O' i l - mget O i l)).
    pose proof (nrm2_nonneg d (fun l => mget O' i l - mget O i l)).
    assert (0 <= vget regs i * vget regs i) by apply Rle_0_sqr. nra.
  - intros Hl O' i HO' Hi Hle l Hl'. unfold l2obj in Hle. rewrite !misfit_lsq, !ridge_nrm2 in Hle.
    rewrite (ridge_min k d (mget (sp_D p)) (mget (sp_Z p) i) (vget regs i) (mget O i) (fun l Hl => HG i l Hi Hl) (mget O' i)) in Hle.
    pose proof (lsq_nonneg k d (mget (sp_D p)) zf (fun l => mget O' i l - mget O i l)).
    pose proof (nrm2_nonneg d (fun l => mget O' i l - mget O i l)) as Hn.
    assert (0 < vget regs i * vget regs i) by (apply Rsqr_pos_lt; auto).
    assert (Z0 : nrm2 d (fun l => mget O' i l - mget O i l) = 0) by nra.
    apply (bsum_nonneg_0 d _) with (i := l) in Z0; auto; [|intros; apply sq_nonneg]. apply sq_0 in Z0. lra.
Qed.

Lemma l2_core_total svd p k d r Phi regs : pre_ok svd p k d r Phi -> length regs = r ->
  (forall i, (i < r)%nat -> vget regs i <> 0) -> exists O, l2_core p regs = Ok O.
Proof.
  intros (Hk & Hd & Hr & HD & HZ & ES & EZ) HL Hn. unfold l2_core, bind.
  destruct (mapM_ok (l2_weights (sp_svals p)) regs) as [W EW].
  { intros x Hx. apply l2_weights_total. apply (In_nth _ _ 0) in Hx. destruct Hx as (i & Hi & <-). apply Hn. lia. }
  rewrite EW. apply mapM_nth in EW. destruct EW as [EL _].
  assert (En : (length W =? nrows (sp_ZPhi p))%nat = true).
  { apply Nat.eqb_eq. unfold nrows. rewrite EZ. unfold matmul. rewrite map_length. apply is_mat_len in HZ. congruence. }
  cbv zeta. rewrite En. eauto.
Qed.

(* ---- reachable states ---- *)
Lemma l2_reach_ok svd s : svd_spec svd -> l2_reach svd s -> forall p, l2_pre s = Some p -> exists k d r Phi, pre_ok svd p k d r Phi.
Proof.
  intros HS H. induction H as [|s D Z s' _ IH HD HZ E|s g _ IH]; intros p Hp.
  - discriminate.
  - unfold l2_fit, bind in E. destruct (svd_fit svd D Z) as [q|] eqn:EF; [|discriminate]. injection E as <-.
    cbn in Hp. injection Hp as <-. apply (svd_fit_ok svd D Z q HD HZ HS EF).
  - apply IH. destruct g; cbn in Hp |- *; auto. destruct (Rlt_dec x 0); auto.
Qed.
Lemma ld_reach_ok svd s : svd_spec svd -> ld_reach svd s -> forall p, ld_pre s = Some p -> exists k d r Phi, pre_ok svd p k d r Phi.
Proof.
  intros HS H. induction H as [|s D Z _ IH HD HZ|s g _ IH]; intros p Hp.
  - discriminate.
  - unfold ld_fit in Hp. destruct (svd_fit svd D Z) as [q|] eqn:EF; [|now apply IH].
    cbn in Hp. injection Hp as <-. apply (svd_fit_ok svd D Z q HD HZ HS EF).
  - apply IH. destruct g as [| |v|]; cbn in Hp |- *; auto. destruct (negs v); auto.
Qed.
Lemma pre_dims svd p k d r Phi : pre_ok svd p k d r Phi -> nrows (sp_D p) = k /\ ncols (sp_D p) = d /\ nrows (sp_Z p) = r.
Proof.
  intros (Hk & Hd & Hr & HD & HZ & _). unfold nrows. rewrite (is_mat_len _ _ _ HD), (is_mat_len _ _ _ HZ), (ncols_is_mat _ _ _ HD Hk). auto.
Qed.
Lemma vget_repeat x n i : (i < n)%nat -> vget (repeat x n) i = x.
Proof. intros H. unfold vget. apply nth_error_nth. apply nth_error_repeat. exact H. Qed.

Lemma row_min_ext r d f g O : (forall O i, (i < r)%nat -> f O i = g O i) -> row_minimizer r d f O -> row_minimizer r d g O.
Proof. intros H [H1 H2]. split; auto. intros O' i HO' Hi. rewrite <- !H by auto. auto. Qed.
Lemma row_uni_ext r d f g O : (forall O i, (i < r)%nat -> f O i = g O i) -> row_unique r d f O -> row_unique r d g O.
Proof. intros H H1 O' i HO' Hi. rewrite <- !H by auto. auto. Qed.

Lemma l2_solves svd s D Z lam O : svd_spec svd -> l2_reach svd s -> odata (l2_pre s) = Some (D, Z) -> l2_reg s = Some lam ->
  l2_solve s = Ok O ->
  let k := nrows D in let d := ncols D in let r := nrows Z in
  let obj := fun O i => misfit k d D Z O i + ridge d lam O i in
  row_minimizer r d obj O /\ (lam <> 0 -> row_unique r d obj O) /\
  normal_eq k d r D Z O (fun i l => lam * lam * mget O i l).
Proof.
  intros HS HR HD HL E. destruct (l2_pre s) as [p|] eqn:Hp; [|discriminate].
  cbn in HD. apply (f_equal (fun x => match x with Some y => y | None => (D, Z) end)) in HD. cbn in HD.
  apply pair_equal_spec in HD. destruct HD as [<- <-].
  destruct (l2_reach_ok svd s HS HR p Hp) as (k & d & r & Phi & HP).
  destruct (pre_dims _ _ _ _ _ _ HP) as (Ek & Ed & Er). rewrite Ek, Ed, Er. cbv zeta.
  unfold l2_solve in E. rewrite Hp, HL, Er in E.
  destruct (l2_core_min svd p k d r Phi (repeat lam r) O HS HP (repeat_length _ _) E) as [M1 M2].
  assert (EX : forall O i, (i < r)%nat -> l2obj k d (sp_D p) (sp_Z p) (vget (repeat lam r)) O i = misfit k d (sp_D p) (sp_Z p) O i + ridge d lam O i).
  { intros O' i Hi. unfold l2obj. now rewrite vget_repeat. }
  split; [eapply row_min_ext; eauto|]. split.
  - intros Hn. eapply row_uni_ext; eauto. apply M2. intros i Hi. now rewrite vget_repeat.
  - intros i l Hi Hl. pose proof (l2_core_grad svd p k d r Phi (repeat lam r) O HS HP (repeat_length _ _) E i l Hi Hl) as G.
    rewrite vget_repeat in G by auto. exact G.
Qed.

Lemma l2_defined svd s D Z lam : svd_spec svd -> l2_reach svd s -> odata (l2_pre s) = Some (D, Z) -> l2_reg s = Some lam -> lam <> 0 ->
  exists O, l2_solve s = Ok O.
Proof.
  intros HS HR HD HL Hn. destruct (l2_pre s) as [p|] eqn:Hp; [|discriminate].
  destruct (l2_reach_ok svd s HS HR p Hp) as (k & d & r & Phi & HP). unfold l2_solve. rewrite Hp, HL.
  destruct (pre_dims _ _ _ _ _ _ HP) as (_ & _ & ->).
  apply (l2_core_total svd p k d r Phi); [exact HP|apply repeat_length|]. intros i Hi. now rewrite vget_repeat.
Qed.

Lemma ld_solves svd s D Z regs O : svd_spec svd -> ld_reach svd s -> odata (ld_pre s) = Some (D, Z) -> ld_reg s = Some regs ->
  length regs = nrows Z -> ld_solve s = Ok O ->
  let k := nrows D in let d := ncols D in let r := nrows Z in
  let obj := fun O i => misfit k d D Z O i + ridge d (vget regs i) O i in
  row_minimizer r d obj O /\ ((forall i, (i < r)%nat -> vget regs i <> 0) -> row_unique r d obj O) /\
  normal_eq k d r D Z O (fun i l => vget regs i * vget regs i * mget O i l).
Proof.
  intros HS HR HD HL HLen E. destruct (ld_pre s) as [p|] eqn:Hp; [|discriminate].
  cbn in HD. apply (f_equal (fun x => match x with Some y => y | None => (D, Z) end)) in HD. cbn in HD.
  apply pair_equal_spec in HD. destruct HD as [<- <-].
  destruct (ld_reach_ok svd s HS HR p Hp) as (k & d & r & Phi & HP).
  destruct (pre_dims _ _ _ _ _ _ HP) as (Ek & Ed & Er). rewrite Ek, Ed, Er in *. cbv zeta.
  unfold ld_solve in E. rewrite Hp, HL in E.
  destruct (l2_core_min svd p k d r Phi regs O HS HP HLen E) as [M1 M2].
  split; [exact M1|]. split; [exact M2|].
  intros i l Hi Hl. exact (l2_core_grad svd p k d r Phi regs O HS HP HLen E i l Hi Hl).
Qed.
Lemma ld_defined svd s D Z regs : svd_spec svd -> ld_reach svd s -> odata (ld_pre s) = Some (D, Z) -> ld_reg s = Some regs ->
  length regs = nrows Z -> (forall i, (i < nrows Z)%nat -> vget regs i <> 0) -> exists O, ld_solve s = Ok O.
Proof.
  intros HS HR HD HL HLen Hn. destruct (ld_pre s) as [p|] eqn:Hp; [|discriminate].
  cbn in HD. apply (f_equal (fun x => match x with Some y => y | None => (D, Z) end)) in HD. cbn in HD.
  apply pair_equal_spec in HD. destruct HD as [<- <-].
  destruct (ld_reach_ok svd s HS HR p Hp) as (k & d & r & Phi & HP). unfold ld_solve. rewrite Hp, HL.
  destruct (pre_dims _ _ _ _ _ _ HP) as (_ & _ & Er). rewrite Er in *.
  apply (l2_core_total svd p k d r Phi); auto.
Qed.

(* ---- PlainSolver ---- *)
Lemma vget_colv_fun d X j l : (l < d)%nat -> vget (colv d X j) l = mget X l j.
Proof. apply vget_colv. Qed.
Lemma colres_lsq k d A B j x : colres k d A B j x = lsq k d (mget A) (fun t => mget B t j) (vget x).
Proof. reflexivity. Qed.
Lemma mT_row_colv d r X i l : is_mat d r X -> (0 < d)%nat -> (i < r)%nat -> (l < d)%nat -> mget (mT X) i l = vget (colv d X i) l.
Proof. intros. rewrite (mget_mT d r) by auto. now rewrite vget_colv. Qed.

Lemma lstsq_rows lst opts k d r A B X : lstsq_spec lst opts -> (0 < k)%nat -> (0 < d)%nat -> is_mat k d A -> is_mat k r B ->
  lst opts A B = Ok X ->
  is_mat r d (mT X) /\
  forall i, (i < r)%nat ->
    (forall y, lsq k d (mget A) (fun t => mget B t i) (mget (mT X) i) <= lsq k d (mget A) (fun t => mget B t i) y) /\
    (forall y, lsq k d (mget A) (fun t => mget B t i) y <= lsq k d (mget A) (fun t => mget B t i) (mget (mT X) i) ->
               nrm2 d (mget (mT X) i) <= nrm2 d y).
Proof.
  intros HS Hk Hd HA HB E. destruct (HS k d r A B X Hk Hd HA HB E) as [HX HM].
  split; [now apply is_mat_mT|]. intros i Hi.
  assert (EC : lsq k d (mget A) (fun t => mget B t i) (mget (mT X) i) = colres k d A B i (colv d X i)).
  { rewrite colres_lsq. apply lsq_ext; auto. intros l Hl. now apply (mT_row_colv d r). }
  assert (EN : nrm2 d (mget (mT X) i) = bsum d (fun l => Rsqr (mget X l i))).
  { apply bsum_ext. intros l Hl. rewrite (mget_mT d r) by auto. reflexivity. }
  assert (EY : forall y, colres k d A B i (map y (seq 0 d)) = lsq k d (mget A) (fun t => mget B t i) y).
  { intros y. rewrite colres_lsq. apply lsq_ext; auto. intros l Hl. now rewrite vget_tab. }
  split; intros y; specialize (HM i (map y (seq 0 d)) Hi (is_vec_tab d y)); destruct HM as [H1 H2]; rewrite EC, <- EY; auto.
  intros H. rewrite EN. specialize (H2 H).
  replace (nrm2 d y) with (bsum d (fun l => Rsqr (vget (map y (seq 0 d)) l))); [exact H2|].
  apply bsum_ext. intros l Hl. now rewrite vget_tab.
Qed.

Lemma plain_solves lst s D0 Z0 s' O : lstsq_spec lst (pl_opts s) -> good_arr D0 -> good_arr Z0 ->
  plain_fit s D0 Z0 = Ok s' -> plain_solve lst s' = Ok O ->
  exists D Z, pl_data s' = Some (D, Z) /\ D0 = M D /\ Z = atleast_2d Z0 /\
  let k := nrows D in let d := ncols D in let r := nrows Z in
  row_minimizer r d (misfit k d D Z) O /\ row_shortest r d (misfit k d D Z) O /\ normal_eq k d r D Z O (fun _ _ => 0).
Proof.
  intros HS HD0 HZ0 EF E. unfold plain_fit, bind in EF. destruct (base_fit D0 Z0) as [[D Z]|] eqn:EB; [|discriminate].
  destruct (base_fit_ok _ _ _ _ HD0 HZ0 EB) as (-> & EZ & k & d & r & Hk & Hd & Hr & HD & HZ).
  injection EF as <-. exists D, Z. split; [reflexivity|]. split; [reflexivity|]. split; [exact EZ|].
  unfold nrows. rewrite (is_mat_len _ _ _ HD), (is_mat_len _ _ _ HZ), (ncols_is_mat _ _ _ HD Hk). cbv zeta.
  unfold plain_solve, bind in E. cbn [pl_data pl_opts] in E. destruct (lst (pl_opts s) D (mT Z)) as [X|] eqn:EL; [|discriminate].
  injection E as <-.
  destruct (lstsq_rows lst (pl_opts s) k d r D (mT Z) X HS Hk Hd HD (is_mat_mT _ _ _ HZ Hr) EL) as [HX HM].
  assert (EM : forall i y, lsq k d (mget D) (fun t => mget (mT Z) t i) y = lsq k d (mget D) (mget Z i) y).
  { intros i y. apply lsq_ext; auto. intros t Ht. now apply (mget_mT r k). }
  split; [split; [exact HX|]|split].
  - intros O' i HO' Hi. rewrite !misfit_lsq, <- !EM. now apply HM.
  - intros O' i HO' Hi Hle. rewrite !misfit_lsq, <- !EM in Hle. exact (proj2 (HM i Hi) _ Hle).
  - intros i l Hi Hl. rewrite Rplus_0_r.
    pose proof (min_normal k d (mget D) (mget Z i) (mget (mT X) i)) as MN. apply MN; auto. intros y. rewrite <- !EM. now apply HM.
Qed.

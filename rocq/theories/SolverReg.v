(* SolverReg.v -- regularizer construction (C37), setters (C40), failing fits (C57), regcond (C58), posteriors (C56). *)
From Verif Require Export SolverTls.
From Verif Require PreStats SpecPre.
#[local] Open Scope R_scope.

(* ---- C37 ---- *)
Lemma lsumn_cons d ds : lsumn (d :: ds) = (d + lsumn ds)%nat. Proof. reflexivity. Qed.
Fixpoint spread (dims : list nat) (xs : vec) : vec :=
  match dims, xs with d :: ds, x :: xs' => repeat x d ++ spread ds xs' | _, _ => [] end.
Lemma spread_length dims : forall xs, length xs = length dims -> length (spread dims xs) = lsumn dims.
Proof. induction dims as [|d ds IH]; intros [|x xs] H; cbn in *; try lia. rewrite app_length, repeat_length. rewrite IH by lia. reflexivity. Qed.
Lemma set_range_app u w a x : length w = a -> forall z, set_range (u ++ w ++ z) (length u) (length u + a) x = u ++ repeat x a ++ z.
Proof.
  intros Hw z. unfold set_range. rewrite firstn_app, Nat.sub_diag, firstn_all. cbn [firstn]. rewrite app_nil_r. f_equal.
  rewrite !app_length. f_equal; [f_equal; lia|].
  rewrite skipn_app. rewrite skipn_all2 by lia. cbn [app]. replace (length u + a - length u)%nat with a by lia.
  rewrite skipn_app. rewrite skipn_all2 by lia. cbn [app]. replace (a - length w)%nat with 0%nat by lia. reflexivity.
Qed.
Lemma fill_spread dims : forall xs u w, length xs = length dims -> length w = lsumn dims ->
  fill (length u) dims xs (u ++ w) = u ++ spread dims xs.
Proof.
  induction dims as [|d ds IH]; intros [|x xs] u w HL Hw; cbn [fill spread] in *; try (cbn in HL; lia).
  - cbn in Hw. destruct w; [reflexivity|cbn in Hw; lia].
  - rewrite lsumn_cons in Hw. rewrite <- (firstn_skipn d w). rewrite set_range_app by (rewrite firstn_length; lia).
    rewrite app_assoc. replace (length u + d)%nat with (length (u ++ repeat x d)) by (rewrite app_length, repeat_length; lia).
    rewrite IH by (rewrite ?skipn_length; cbn in HL; lia). now rewrite app_assoc.
Qed.
Lemma spread_get dims : forall xs b j, length xs = length dims -> (b < length dims)%nat -> (j < nth b dims 0)%nat ->
  vget (spread dims xs) (lsumn (firstn b dims) + j) = vget xs b.
Proof.
  induction dims as [|d ds IH]; intros [|x xs] b j HL Hb Hj; cbn [spread length] in *; try lia.
  destruct b as [|b]; cbn [firstn lsumn nth fold_right] in *.
  - rewrite vget_app_l by (rewrite repeat_length; lia). rewrite Nat.add_0_l. rewrite vget_repeat by lia. reflexivity.
  - fold (lsumn (firstn b ds)). rewrite vget_app_r by (rewrite repeat_length; lia). rewrite repeat_length.
    replace (d + lsumn (firstn b ds) + j - d)%nat with (lsumn (firstn b ds) + j)%nat by lia. rewrite IH by lia. reflexivity.
Qed.
Lemma bsum_blocks dims : forall f, bsum (lsumn dims) f
  = bsum (length dims) (fun b => bsum (nth b dims 0%nat) (fun j => f (lsumn (firstn b dims) + j)%nat)).
Proof.
  induction dims as [|d ds IH]; intros f; [reflexivity|].
  rewrite lsumn_cons, bsum_split. cbn [length]. rewrite (bsum_S_l (length ds)). cbn [firstn nth]. f_equal.
  rewrite IH. apply bsum_ext. intros b Hb. rewrite lsumn_cons.
  apply bsum_ext. intros j Hj. f_equal. lia.
Qed.

Lemma get_reg_ok ops params r m v : get_operator_regularizer ops params r m = Ok v ->
  exists dims, mapM (regop_dim r m) ops = Ok dims /\ length dims = length ops /\ length params = length ops /\ v = spread dims params.
Proof.
  intros E. unfold get_operator_regularizer in E. destruct (Nat.eqb_spec (length ops) (length params)) as [HL|]; [|discriminate].
  cbn [negb] in E. destruct (existsb regop_inputs ops && (m =? 0)%nat); [discriminate|]. unfold bind in E.
  destruct (mapM (regop_dim r m) ops) as [dims|] eqn:EM; [|discriminate]. injection E as <-.
  exists dims. pose proof (mapM_nth _ _ _ EM) as [EL _]. repeat split; auto.
  apply (fill_spread dims params [] (vzeros (lsumn dims))); [lia|]. unfold vzeros. apply repeat_length.
Qed.

Lemma tikpen_diag d v O i : is_vec d v -> tikpen d (mdiag v) O i = bsum d (fun l => vget v l * vget v l * Rsqr (mget O i l)).
Proof.
  intros Hv. unfold tikpen. apply bsum_ext. intros a Ha.
  rewrite (bsum_ext d _ (fun l => dlt a l * (vget v a * mget O i l))).
  2:{ intros l Hl. rewrite (mget_mdiag v d) by auto. unfold dlt. destruct (Nat.eqb_spec a l) as [->|]; ring. }
  rewrite bsum_dlt' by auto. unfold Rsqr. ring.
Qed.

Lemma get_reg_penalty ops params r m v : get_operator_regularizer ops params r m = Ok v ->
  exists dims, Forall2 (fun o w => regop_dim r m o = Ok w) ops dims /\ length params = length ops /\ is_vec (lsumn dims) v /\
  forall O i, tikpen (lsumn dims) (mdiag v) O i
    = bsum (length ops) (fun b => vget params b * vget params b * bsum (nth b dims 0%nat) (fun j => Rsqr (mget O i (lsumn (firstn b dims) + j)))).
Proof.
  intros E. destruct (get_reg_ok _ _ _ _ _ E) as (dims & EM & EL & EP & ->). exists dims.
  assert (HV : is_vec (lsumn dims) (spread dims params)) by (apply spread_length; lia).
  split; [|split; [exact EP|split; [exact HV|]]].
  - clear - EM. revert dims EM. induction ops as [|o ops IH]; cbn [mapM]; intros dims E.
    + injection E as <-. constructor.
    + destruct (regop_dim r m o) as [w|] eqn:Ew; [|discriminate]. destruct (mapM (regop_dim r m) ops) as [l|] eqn:El; [|discriminate].
      injection E as <-. constructor; auto.
  - intros O i. rewrite tikpen_diag by auto. rewrite bsum_blocks, EL. apply bsum_ext. intros b Hb. rewrite <- bsum_scal_l.
    apply bsum_ext. intros j Hj. rewrite spread_get by (auto; lia). reflexivity.
Qed.
Lemma get_reg_errors ops params r m :
  (length ops <> length params -> get_operator_regularizer ops params r m = Err ValueError) /\
  (length ops = length params -> m = 0%nat -> (exists o, In o ops /\ regop_inputs o = true) -> get_operator_regularizer ops params r m = Err ValueError) /\
  (length ops = length params -> (m = 0%nat -> forall o, In o ops -> regop_inputs o = false) -> (exists c, In (RgItp c) ops) ->
     get_operator_regularizer ops params r m = Err TypeError) /\
  (length ops = length params -> (m = 0%nat -> forall o, In o ops -> regop_inputs o = false) -> (forall c, ~ In (RgItp c) ops) ->
     exists v, get_operator_regularizer ops params r m = Ok v).
Proof.
  unfold get_operator_regularizer. split; [|split; [|split]].
  - intros H. now rewrite (proj2 (Nat.eqb_neq _ _) H).
  - intros H -> (o & Ho & Hi). rewrite H, Nat.eqb_refl. cbn [negb].
    rewrite (proj2 (existsb_exists regop_inputs ops)) by eauto. reflexivity.
  - intros H Hm (c & Hc). rewrite H, Nat.eqb_refl. cbn [negb].
    assert (EF : existsb regop_inputs ops && (m =? 0)%nat = false).
    { destruct (Nat.eqb_spec m 0) as [->|]; [|apply andb_false_r]. rewrite andb_true_r. apply not_true_is_false. intros T.
      apply existsb_exists in T. destruct T as (o & Ho & Hi). rewrite Hm in Hi by auto. discriminate. }
    rewrite EF. assert (EM : mapM (regop_dim r m) ops = Err TypeError); [|now rewrite EM].
    clear - Hc. induction ops as [|o ops IH]; [destruct Hc|]. cbn [mapM]. destruct o; cbn [regop_dim]; auto; destruct Hc as [Hc|Hc]; try discriminate; now rewrite IH.
  - intros H Hm Hc. rewrite H, Nat.eqb_refl. cbn [negb].
    assert (EF : existsb regop_inputs ops && (m =? 0)%nat = false).
    { destruct (Nat.eqb_spec m 0) as [->|]; [|apply andb_false_r]. rewrite andb_true_r. apply not_true_is_false. intros T.
      apply existsb_exists in T. destruct T as (o & Ho & Hi). rewrite Hm in Hi by auto. discriminate. }
    rewrite EF. destruct (mapM_ok (regop_dim r m) ops) as [dims ->]; [|cbn; eauto].
    intros o Ho. destruct o as [c|a|c]; cbn; eauto. now elim (Hc c).
Qed.

(* ---- C40 ---- *)
Lemma l2_set_atomic s g e : snd (l2_set s g) = Err e -> fst (l2_set s g) = s.
Proof. destruct g; cbn; try discriminate; auto. destruct (Rlt_dec x 0); [auto|discriminate]. Qed.
Lemma ld_set_atomic s g : snd (ld_set s g) = Err ValueError \/ (ld_pre s = None /\ raises (snd (ld_set s g))) -> fst (ld_set s g) = s.
Proof.
  destruct g as [| |v|]; cbn; auto.
  - intros [H|[_ [e H]]]; discriminate.
  - destruct (negs v); [auto|]. cbn. unfold ld_check. destruct (ld_pre s) as [q|]; intros [H|[H1 [e H]]]; try discriminate.
    unfold guard in H. destruct (negb _); discriminate.
Qed.
Lemma tk_set_atomic s g : snd (tk_set s g) = Err ValueError \/ (tk_data s = None /\ raises (snd (tk_set s g))) -> fst (tk_set s g) = s.
Proof.
  destruct g as [[v|G]|]; cbn.
  - destruct (negs v); [auto|]. cbn. unfold tk_check. destruct (tk_data s) as [[D Z]|]; intros [H|[H1 [e H]]]; try discriminate.
    unfold guard in H. destruct (negb _); discriminate.
  - unfold tk_check. destruct (tk_data s) as [[D Z]|]; intros [H|[H1 [e H]]]; try discriminate. unfold guard in H. destruct (negb _); discriminate.
  - intros [H|[_ [e H]]]; discriminate.
Qed.
Lemma td_set_atomic s gs : td_data s = None -> raises (snd (td_set s gs)) -> fst (td_set s gs) = s.
Proof.
  intros HD [e H]. destruct gs as [l|]; cbn in *; [|discriminate]. destruct (mapM td_one l) as [Gs|]; [|reflexivity].
  cbn in H. unfold td_check in H. rewrite HD in H. discriminate.
Qed.
Lemma td_set_negative s l : (exists v, In (V v) l /\ negs v = true) -> td_set s (Some l) = (s, Err ValueError).
Proof.
  intros (v & Hv & Hn). cbn. assert (EM : mapM td_one l = Err ValueError); [|now rewrite EM].
  induction l as [|a l IH]; [destruct Hv|]. cbn [mapM]. destruct (td_one a) as [G|e] eqn:Ea.
  - destruct Hv as [->|Hv]; [cbn in Ea; now rewrite Hn in Ea|]. now rewrite IH.
  - destruct a as [w|w]; cbn in Ea; [|discriminate]. destruct (negs w); [congruence|discriminate].
Qed.

(* ---- concrete versions of the scipy routines, for examples and refutations ---- *)
Definition meq := list_eq_dec (list_eq_dec Req_EM_T).
Definition D32 : mat := [[2; 0]; [0; 1]; [0; 0]].
Definition svdE (A : mat) : res (mat * vec * mat) :=
  if meq A (eye 1) then Ok (eye 1, [1], eye 1)
  else if meq A (eye 2) then Ok (eye 2, [1; 1], eye 2)
  else if meq A D32 then Ok ([[1; 0]; [0; 1]; [0; 0]], [2; 1], eye 2)
  else if meq A [[1; 0]] then Ok ([[1]], [1], [[1; 0]])
  else Err LinAlgError.
Ltac small i := let H := fresh in
  lazymatch goal with K : (i < ?n)%nat |- _ => first [ (assert (H : i = 0%nat) by lia) | (assert (H : i = 0%nat \/ i = 1%nat) by lia) | (assert (H : i = 0%nat \/ i = 1%nat \/ i = 2%nat) by lia)] end;
  repeat (destruct H as [H|H]); subst i.
Lemma is_mat_inj r c r' c' A : is_mat r c A -> is_mat r' c' A -> (0 < r)%nat -> r = r' /\ c = c'.
Proof.
  intros [H1 H2] [H3 H4] Hr. split; [congruence|]. destruct A as [|x A]; [cbn in H1; lia|].
  apply Forall_inv in H2, H4. unfold is_vec in *. congruence.
Qed.
Lemma svdE_spec : svd_spec svdE.
Proof.
  intros k d A Phi s PsiT Hk Hd HA E. unfold svdE in E.
  destruct (meq A (eye 1)) as [->|_]; [|destruct (meq A (eye 2)) as [->|_]; [|destruct (meq A D32) as [->|_]; [|destruct (meq A [[1; 0]]) as [->|_]; [|discriminate]]]].
  1: assert (HI : is_mat 1 1 (eye 1)) by (split; repeat constructor).
  2: assert (HI : is_mat 2 2 (eye 2)) by (split; repeat constructor).
  3: assert (HI : is_mat 3 2 D32) by (split; repeat constructor).
  4: assert (HI : is_mat 1 2 [[1; 0]]) by (split; repeat constructor).
  all: destruct (is_mat_inj _ _ _ _ _ HA HI Hk) as [-> ->]; apply f_equal with (f := fun x => match x with Ok y => y | Err _ => (Phi, s, PsiT) end) in E;
    apply pair_equal_spec in E; destruct E as [E <-]; apply pair_equal_spec in E; destruct E as [<- <-]; cbn.
  all: split; [split; repeat constructor|split; [reflexivity|split; [split; repeat constructor|]]].
  all: split; [intros i j Hi Hj; small i; small j; cbn; lra|split; [intros i j Hi Hj; small i; small j; cbn; lra|]].
  all: split; [intros i Hi; small i; cbn; lra|split; [intros i j Hij Hj; small j; assert (Hi : (i < 2)%nat) by lia; small i; try lia; cbn; lra|]].
  all: intros i j Hi Hj; small i; small j; cbn; lra.
Qed.
Definition slv1 (A B : mat) : res mat :=
  match A with [[a]] => if Req_EM_T a 0 then Err LinAlgError else Ok (map (map (Rmult (/ a))) B) | _ => Err LinAlgError end.
Lemma slv1_spec : solve_spec slv1.
Proof.
  intros r c A B X [HL HF] HB E. destruct A as [|[|a [|]] [|]]; cbn in E; try discriminate.
  destruct (Req_EM_T a 0) as [|Ha]; [discriminate|]. injection E as <-. cbn in HL. subst r.
  assert (HX : is_mat 1 c (map (map (Rmult (/ a))) B)).
  { apply (is_mat_map 1 c); [apply HB|]. intros x Hx. apply is_vec_map. destruct HB as [_ HBf]. rewrite Forall_forall in HBf. now apply HBf. }
  split; [exact HX|].
  assert (HA : is_mat 1 1 [[a]]) by (split; auto).
  apply (mat_ext 1 c); [eapply is_mat_matmul; eauto|exact HB|]. intros i j Hi Hj. assert (i = 0%nat) by lia. subst i.
  rewrite (mget_matmul 1 1 c) by auto. cbn [bsum]. rewrite Rplus_0_l. unfold mget at 1. cbn [nth].
  unfold mget at 1. rewrite (nth_map_in _ B 0 [] []) by (destruct HB; lia).
  pose proof (is_mat_row _ _ _ _ HB (Nat.lt_0_succ 0)) as Hrow. unfold is_vec in Hrow.
  rewrite (nth_map_in _ (nth 0 B []) j 0 0) by lia. fold (mget B 0 j). field. exact Ha.
Qed.
(* least squares with the 3 x 2 matrix D32 and with 1 x 1 matrices other than zero *)
Definition lstE (o : lsopts) (A B : mat) : res mat :=
  if meq A D32 then Ok [map (Rmult (/ 2)) (nth 0 B []); nth 1 B []] else slv1 A B.
Lemma lstE_spec o : lstsq_spec lstE o.
Proof.
  intros k d c A B X Hk Hd HA HB E. unfold lstE in E. destruct (meq A D32) as [->|_].
  - assert (HI : is_mat 3 2 D32) by (split; repeat constructor).
    destruct (is_mat_inj _ _ _ _ _ HA HI Hk) as [-> ->]. injection E as <-.
    pose proof (is_mat_row _ _ _ 0%nat HB ltac:(lia)) as H0. pose proof (is_mat_row _ _ _ 1%nat HB ltac:(lia)) as H1.
    split.
    { split; [reflexivity|]. constructor; [now apply is_vec_map|]. constructor; [exact H1|constructor]. }
    intros j x Hj Hx. unfold colres. cbn [bsum]. rewrite !vget_colv_fun by lia.
    change (mget D32 0 0) with 2. change (mget D32 0 1) with 0. change (mget D32 1 0) with 0. change (mget D32 1 1) with 1.
    change (mget D32 2 0) with 0. change (mget D32 2 1) with 0.
    assert (E0 : mget [map (Rmult (/ 2)) (nth 0 B []); nth 1 B []] 0 j = mget B 0 j / 2).
    { unfold mget at 1. cbn [nth]. unfold is_vec in H0. rewrite (nth_map_in _ (nth 0 B []) j 0 0) by lia. fold (mget B 0 j). field. }
    assert (E1 : mget [map (Rmult (/ 2)) (nth 0 B []); nth 1 B []] 1 j = mget B 1 j) by reflexivity.
    rewrite E0, E1. unfold Rsqr. generalize (mget B 0 j) (mget B 1 j) (mget B 2 j) (vget x 0) (vget x 1). intros b0 b1 b2 x0 x1.
    split.
    + pose proof (Rle_0_sqr (2 * x0 - b0)) as K0. pose proof (Rle_0_sqr (x1 - b1)) as K1. unfold Rsqr in *. nra.
    + intros K. pose proof (Rle_0_sqr (2 * x0 - b0)) as K0. pose proof (Rle_0_sqr (x1 - b1)) as K1. unfold Rsqr in *.
      assert (Z0 : (2 * x0 - b0) * (2 * x0 - b0) = 0) by nra. assert (Z1 : (x1 - b1) * (x1 - b1) = 0) by nra.
      apply Rmult_integral in Z0, Z1. assert (2 * x0 = b0) by (destruct Z0; lra). assert (x1 = b1) by (destruct Z1; lra). subst. lra.
  - assert (HS : k = 1%nat /\ d = 1%nat).
    { destruct A as [|[|a [|]] [|]]; cbn in E; try discriminate. apply (is_mat_inj k d 1 1 [[a]]); auto. split; repeat constructor. }
    destruct HS as [-> ->]. destruct (slv1_spec _ _ _ _ _ HA HB E) as [HX EX]. split; [exact HX|].
    intros j x Hj Hx. unfold colres. cbn [bsum]. rewrite vget_colv_fun by lia.
    assert (K : mget A 0 0 * mget X 0 j = mget B 0 j).
    { rewrite <- EX. rewrite (mget_matmul 1 1 c) by auto. cbn [bsum]. ring. }
    assert (Ha : mget A 0 0 <> 0).
    { destruct A as [|[|a [|]] [|]]; cbn in E; try discriminate. cbn. destruct (Req_EM_T a 0); [discriminate|auto]. }
    revert K Ha. generalize (mget A 0 0) (mget B 0 j) (mget X 0 j) (vget x 0). intros a b y x0 <- Ha. split.
    + unfold Rsqr. pose proof (Rle_0_sqr (a * x0 - a * y)) as K. unfold Rsqr in K. nra.
    + unfold Rsqr. intros K. pose proof (Rle_0_sqr (a * x0 - a * y)) as K0. unfold Rsqr in K0.
      assert (Z : (a * x0 - a * y) * (a * x0 - a * y) = 0) by nra. apply Rmult_integral in Z.
      assert (ZZ : a * (x0 - y) = 0) by (destruct Z; lra). apply Rmult_integral in ZZ. destruct ZZ; [lra|]. assert (x0 = y) by lra. subst. lra.
Qed.

Lemma good_mat r c A : (0 < r)%nat -> (0 < c)%nat -> is_mat r c A -> good_arr (M A).
Proof. intros. exists r, c. auto. Qed.
Lemma good_1x1 x : good_arr (M [[x]]).
Proof. apply (good_mat 1 1); try lia. split; repeat constructor. Qed.
Lemma meq_refl {T} A (x y : T) : (if meq A A then x else y) = x.
Proof. destruct (meq A A); [reflexivity|congruence]. Qed.
Lemma svdE_1 : svdE [[1]] = Ok ([[1]], [1], [[1]]).
Proof. unfold svdE. change (eye 1) with [[1]]. apply meq_refl. Qed.

(* the shape check comes after the assignment *)
Definition ld1 : l2d := {| ld_reg := Some [1]; ld_pre := Some {| sp_D := [[1]]; sp_Z := [[1]]; sp_svals := [1]; sp_ZPhi := matmul [[1]] [[1]]; sp_PsiT := [[1]] |} |}.
Lemma negs_pos1 : negs [1] = false.
Proof. unfold negs. cbn. destruct (Rlt_dec 1 0); [lra|reflexivity]. Qed.
Lemma negs_pos2 : negs [1; 1] = false.
Proof. unfold negs. cbn. destruct (Rlt_dec 1 0); [lra|reflexivity]. Qed.
Lemma ld1_reach : ld_reach svdE ld1.
Proof.
  assert (E : ld1 = fst (ld_fit svdE (fst (ld_set {| ld_reg := None; ld_pre := None |} (RVec [1]))) (M [[1]]) (M [[1]]))).
  { cbn [ld_set]. rewrite negs_pos1. unfold ld_fit, svd_fit, base_fit. cbn [ncols nrows atleast_2d length bind fst snd Nat.eqb hd]. rewrite svdE_1. reflexivity. }
  rewrite E. apply ldr_fit; [apply ldr_reg, ldr_new|apply good_1x1|apply good_1x1].
Qed.
Lemma ld_set_refuted : exists svd s g, svd_spec svd /\ ld_reach svd s /\ snd (ld_set s g) = Err DimensionalityError /\
  ld_reg (fst (ld_set s g)) <> ld_reg s /\
  exists D Z O, odata (ld_pre (fst (ld_set s g))) = Some (D, Z) /\ ld_solve (fst (ld_set s g)) = Ok O /\ nrows O <> nrows Z.
Proof.
  exists svdE, ld1, (RVec [1; 1]). split; [apply svdE_spec|]. split; [apply ld1_reach|].
  cbn [ld_set]. rewrite negs_pos2. split; [reflexivity|]. split; [cbn; discriminate|].
  exists [[1]], [[1]]. unfold ld_solve, l2_core, l2_weights. cbn. destruct (Req_EM_T (1 * 1 + 1 * 1) 0) as [|_]; [lra|].
  cbn. eexists. split; [reflexivity|]. split; [reflexivity|]. discriminate.
Qed.
Definition tk1 (mt : method) : tk := {| tk_reg := Some [[1]]; tk_method := mt; tk_opts := no_opts; tk_data := Some ([[1]], [[1]]); tk_pre := Some (mkpads [[1]] [[1]]) |}.
Lemma tk1_reach mt : tk_reach (tk1 mt).
Proof.
  apply (tkr_fit (fst (tk_set {| tk_reg := None; tk_method := mt; tk_opts := no_opts; tk_data := None; tk_pre := None |} (Some (M [[1]])))) (M [[1]]) (M [[1]])).
  - apply tkr_reg, tkr_new.
  - apply good_1x1.
  - apply good_1x1.
  - reflexivity.
Qed.
Lemma tk_set_refuted : exists lst slv s g O, lstsq_spec lst (tk_opts s) /\ solve_spec slv /\ tk_reach s /\ tk_solve lst slv s = Ok O /\
  snd (tk_set s g) = Err DimensionalityError /\ tk_reg (fst (tk_set s g)) <> tk_reg s /\ raises (tk_solve lst slv (fst (tk_set s g))).
Proof.
  exists lstE, slv1, (tk1 MNormal), (Some (M (eye 2))). eexists. split; [apply lstE_spec|]. split; [apply slv1_spec|]. split; [apply tk1_reach|].
  unfold tk_solve, tk1. cbn [tk_data tk_reg tk_pre tk_method tk_opts].
  split.
  { unfold tk_solve1, madd_r, mkpads. cbn. destruct (Req_EM_T _ 0) as [K|_]; [lra|]. cbn. reflexivity. }
  split; [reflexivity|]. split; [cbn; discriminate|]. exists ValueError. reflexivity.
Qed.
Definition td1 (mt : method) : tkd := {| td_reg := Some [[[1]]]; td_method := mt; td_data := Some ([[1]], [[1]]); td_pre := Some (mkpads [[1]] [[1]]) |}.
Lemma td1_reach mt : td_reach (td1 mt).
Proof.
  apply (tdr_fit (fst (td_set {| td_reg := None; td_method := mt; td_data := None; td_pre := None |} (Some [M [[1]]]))) (M [[1]]) (M [[1]])).
  - apply tdr_reg, tdr_new.
  - apply good_1x1.
  - apply good_1x1.
  - reflexivity.
Qed.
Lemma td_set_refuted : exists lst slv s g O, lstsq_spec lst no_opts /\ solve_spec slv /\ td_reach s /\ td_solve lst slv s = Ok O /\
  snd (td_set s g) = Err ValueError /\ td_reg (fst (td_set s g)) <> td_reg s /\ raises (td_solve lst slv (fst (td_set s g))).
Proof.
  exists lstE, slv1, (td1 MNormal), (Some [M [[1]]; M [[1]]]). eexists. split; [apply lstE_spec|]. split; [apply slv1_spec|]. split; [apply td1_reach|].
  unfold td_solve, td1. cbn [td_data td_reg td_pre td_method].
  split.
  { unfold tk_solve1, madd_r, mkpads. cbn. destruct (Req_EM_T _ 0) as [K|_]; [lra|]. cbn. reflexivity. }
  split; [reflexivity|]. split; [cbn; discriminate|]. exists IndexError. cbn.
  unfold tk_solve1, madd_r, mkpads. cbn. destruct (Req_EM_T _ 0) as [K|_]; [lra|]. reflexivity.
Qed.

(* ---- C57: calls of fit that raise ---- *)
Lemma fit_bad_arguments D Z e : base_fit D Z = Err e ->
  (forall s, tk_fit s D Z = (s, Err e)) /\ (forall s, td_fit s D Z = (s, Err e)) /\ (forall svd s, ld_fit svd s D Z = (s, Err e)) /\
  (forall svd slv s, tls_fit svd slv s D Z = (s, Err e)).
Proof.
  intros E. split; [|split; [|split]]; intros; unfold tk_fit, td_fit, ld_fit, svd_fit, tls_fit; rewrite E; reflexivity.
Qed.
Lemma base_fit_mismatch k d D r k' Z : (0 < k)%nat -> is_mat k d D -> (0 < r)%nat -> is_mat r k' Z -> k <> k' ->
  base_fit (M D) (M Z) = Err DimensionalityError.
Proof.
  intros Hk HD Hr HZ Hn. unfold base_fit. cbn [atleast_2d]. rewrite (ncols_is_mat _ _ _ HZ Hr). destruct HD as [HL _].
  unfold nrows. rewrite HL. destruct (Nat.eqb_spec k' k); [congruence|reflexivity].
Qed.
Lemma base_fit_vec v Z : base_fit (V v) Z = Err ValueError.
Proof. reflexivity. Qed.
(* a Tikhonov solver after: regularizer [[1]], fit([[1]], [[1]]), regularizer eye(2) (raises), fit([[1]], [[3]]) (raises), regularizer [[1]] *)
Definition tk_history (s0 : tk) : tk :=
  let s1 := fst (tk_set s0 (Some (M (eye 2)))) in
  let s2 := fst (tk_fit s1 (M [[1]]) (M [[3]])) in
  fst (tk_set s2 (Some (M [[1]]))).
Lemma tk_stale : exists lst slv s D Z D' Z' s1 s2 O, lstsq_spec lst (tk_opts s) /\ solve_spec slv /\ tk_reach s /\ tk_data s = Some (D, Z) /\
  s1 = fst (tk_set s (Some (M (eye 2)))) /\
  snd (tk_fit s1 (M D') (M Z')) = Err DimensionalityError /\ tk_data (fst (tk_fit s1 (M D') (M Z'))) = Some (D', Z') /\ tk_data s1 <> Some (D', Z') /\
  s2 = fst (tk_set (fst (tk_fit s1 (M D') (M Z'))) (Some (M [[1]]))) /\
  tk_data s2 = Some (D', Z') /\ tk_reg s2 = Some [[1]] /\ tk_solve lst slv s2 = Ok O /\
  ~ row_minimizer 1 1 (fun O i => misfit 1 1 D' Z' O i + tikpen 1 [[1]] O i) O.
Proof.
  exists lstE, slv1, (tk1 MNormal), [[1]], [[1]], [[1]], [[3]]. do 3 eexists.
  split; [apply lstE_spec|]. split; [apply slv1_spec|]. split; [apply tk1_reach|]. split; [reflexivity|].
  split; [reflexivity|]. split; [reflexivity|]. split; [reflexivity|].
  split. { cbn. intros K. injection K. lra. }
  split; [reflexivity|]. split; [reflexivity|]. split; [reflexivity|]. split.
  { unfold tk_solve, tk_solve1, madd_r, mkpads. cbn. destruct (Req_EM_T _ 0) as [K|_]; [lra|]. cbn. reflexivity. }
  intros [_ K]. specialize (K [[3/2]] 0%nat ltac:(split; repeat constructor) ltac:(lia)). revert K.
  unfold misfit, tikpen, mget. cbn. unfold Rsqr. intros K.
  match type of K with context [?a * (?b + ?c)] => idtac | _ => idtac end.
  match type of K with context [/ ?e] => assert (Hi : / e = / 2) by (f_equal; ring); rewrite Hi in K end. lra.
Qed.
(* total least squares: fit(eye(2)[:, :1], [[0, 1]]) then fit([[1]], [[3]]) which raises *)
Lemma tls_stale : exists svd slv s D Z D' Z' O, svd_spec svd /\ solve_spec slv /\
  tls_fit svd slv {| tl_data := None; tl_sol := None |} (M D) (M Z) = (s, Ok tt) /\
  snd (tls_fit svd slv s (M D') (M Z')) = Err ValueError /\ tl_data (fst (tls_fit svd slv s (M D') (M Z'))) = Some (D', Z') /\
  tls_solve s = Ok O /\ tls_solve (fst (tls_fit svd slv s (M D') (M Z'))) = Ok O /\
  (exists O', consistent 1 1 1 D' Z' [[0]] [[0]] O') /\ ~ consistent 1 1 1 D' Z' [[0]] [[0]] O.
Proof.
  destruct (PreStats.vmax_total [1; 1] ltac:(discriminate)) as [a Ea]. destruct (PreStats.vmin_total [1; 1] ltac:(discriminate)) as [b Eb].
  exists svdE, slv1. eexists. exists [[1]; [0]], [[0; 1]], [[1]], [[3]]. eexists.
  split; [apply svdE_spec|]. split; [apply slv1_spec|].
  split.
  { unfold tls_fit. cbn -[svdE slv1 rmax rmin]. unfold svdE at 1.
    destruct (meq _ (eye 1)) as [K|_]; [discriminate|].
    change (eye 2) with [[1; 0]; [0; 1]]. rewrite meq_refl. cbn -[slv1 rmax rmin].
    unfold rmax, rmin. rewrite Ea, Eb. cbn -[slv1]. unfold slv1. destruct (Req_EM_T 1 0) as [|_]; [lra|]. cbn. reflexivity. }
  split; [reflexivity|]. split; [reflexivity|]. split; [reflexivity|]. split; [reflexivity|]. split.
  - exists [[3]]. intros t c Ht Hc. small t. small c. cbn. lra.
  - intros K. specialize (K 0%nat 0%nat ltac:(lia) ltac:(lia)). revert K. cbn. lra.
Qed.

(* ---- C56: posteriors ---- *)
Lemma check_sigmas_ok rs sg : check_sigmas rs = Ok sg -> sg = rs /\ forall x, In x rs -> eps <= x.
Proof.
  unfold check_sigmas. destruct (existsb _ rs) eqn:E; [discriminate|]. intros H. injection H as <-. split; [reflexivity|].
  intros x Hx. apply Rnot_lt_le. intros K. assert (T : existsb (fun x => if Rlt_dec x eps then true else false) rs = true).
  { apply existsb_exists. exists x. split; [exact Hx|]. destruct (Rlt_dec x eps); [reflexivity|contradiction]. }
  congruence.
Qed.
Lemma check_sigmas_small rs x : In x rs -> x < eps -> check_sigmas rs = Err RuntimeError.
Proof.
  intros Hx K. unfold check_sigmas. replace (existsb _ rs) with true; [reflexivity|]. symmetry. apply existsb_exists. exists x.
  split; [exact Hx|]. destruct (Rlt_dec x eps); [reflexivity|contradiction].
Qed.
Lemma eps_pos : 0 < eps.
Proof. unfold eps. apply Rinv_0_lt_compat. apply pow_lt. lra. Qed.
Lemma is_mat_sym d A : (0 < d)%nat -> is_mat d d A -> is_mat d d (sym A).
Proof. intros Hd HA. unfold sym. apply is_mat_mscale. apply is_mat_madd; [exact HA|]. apply is_mat_mT; auto. Qed.
Lemma mget_sym d A a b : (0 < d)%nat -> is_mat d d A -> (a < d)%nat -> (b < d)%nat -> mget A a b = mget A b a -> mget (sym A) a b = mget A a b.
Proof.
  intros Hd HA Ha Hb HS. unfold sym.
  rewrite (mget_mscale d d) by (auto using is_mat_madd, is_mat_mT). rewrite (mget_madd d d) by (auto using is_mat_mT).
  rewrite (mget_mT d d) by auto. rewrite <- HS. field.
Qed.
Lemma mget_gram k d D a b : (0 < k)%nat -> (0 < d)%nat -> is_mat k d D -> (a < d)%nat -> (b < d)%nat ->
  mget (matmul (mT D) D) a b = bsum k (fun t => mget D t a * mget D t b).
Proof.
  intros Hk Hd HD Ha Hb. rewrite (mget_matmul d k d) by (auto using is_mat_mT).
  apply bsum_ext. intros t Ht. rewrite (mget_mT k d) by auto. reflexivity.
Qed.
Lemma precision_l2 k d D lam v : (0 < k)%nat -> (0 < d)%nat -> is_mat k d D ->
  precision k d D (fun a b => if Nat.eqb a b then lam * lam else 0) v (mscale (/ v) (madd (sym (matmul (mT D) D)) (mscale (lam * lam) (eye d)))).
Proof.
  intros Hk Hd HD. assert (HG : is_mat d d (matmul (mT D) D)) by (apply (is_mat_matmul d k d); auto using is_mat_mT).
  assert (HS : is_mat d d (sym (matmul (mT D) D))) by (apply is_mat_sym; auto).
  assert (HE : is_mat d d (mscale (lam * lam) (eye d))) by (apply is_mat_mscale, is_mat_eye).
  split; [apply is_mat_mscale, is_mat_madd; auto|]. intros a b Ha Hb.
  rewrite (mget_mscale d d) by (auto using is_mat_madd). rewrite (mget_madd d d) by auto.
  rewrite (mget_sym d) by (auto; rewrite !(mget_gram k d) by auto; apply bsum_ext; intros; ring).
  rewrite (mget_gram k d) by auto. rewrite mget_scaled_eye by auto. unfold dlt. destruct (a =? b)%nat; unfold Rdiv; ring.
Qed.
Lemma precision_tk k d D G v : (0 < k)%nat -> (0 < d)%nat -> is_mat k d D -> is_mat d d G ->
  precision k d D (fun a b => bsum d (fun c => mget G c a * mget G c b)) v (mscale (/ v) (sym (madd (matmul (mT D) D) (matmul (mT G) G)))).
Proof.
  intros Hk Hd HD HG0. assert (HG : is_mat d d (matmul (mT D) D)) by (apply (is_mat_matmul d k d); auto using is_mat_mT).
  assert (HG1 : is_mat d d (matmul (mT G) G)) by (apply (is_mat_matmul d d d); auto using is_mat_mT).
  assert (HS : is_mat d d (madd (matmul (mT D) D) (matmul (mT G) G))) by (apply is_mat_madd; auto).
  split; [apply is_mat_mscale, is_mat_sym; auto|]. intros a b Ha Hb.
  rewrite (mget_mscale d d) by (auto using is_mat_sym).
  assert (E : forall a b, (a < d)%nat -> (b < d)%nat -> mget (madd (matmul (mT D) D) (matmul (mT G) G)) a b
    = bsum k (fun t => mget D t a * mget D t b) + bsum d (fun c => mget G c a * mget G c b)).
  { intros a' b' Ha' Hb'. rewrite (mget_madd d d) by auto. rewrite (mget_gram k d), (mget_gram d d) by auto. reflexivity. }
  rewrite (mget_sym d) by (auto; rewrite !E by auto; f_equal; apply bsum_ext; intros; ring). rewrite E by auto. unfold Rdiv. ring.
Qed.
Lemma nth_map2 {A B C} (f : A -> B -> C) u v i da db dc : (i < length u)%nat -> (i < length v)%nat -> nth i (map2 f u v) dc = f (nth i u da) (nth i v db).
Proof.
  revert v i. induction u as [|x u IH]; intros [|y v] [|i] H1 H2; cbn in *; try lia; auto. apply IH; lia.
Qed.
Lemma map2_length' {A B C} (f : A -> B -> C) u v : length u = length v -> length (map2 f u v) = length u.
Proof. revert v. induction u as [|x u IH]; intros [|y v] H; cbn in *; try lia. rewrite IH by lia. reflexivity. Qed.

Lemma l2_posterior_ok svd s D Z lam O Ps : svd_spec svd -> l2_reach svd s -> odata (l2_pre s) = Some (D, Z) -> l2_reg s = Some lam ->
  l2_posterior s = Ok (O, Ps) ->
  let k := nrows D in let d := ncols D in let r := nrows Z in
  l2_solve s = Ok O /\ length Ps = r /\
  forall i, (i < r)%nat -> let v := (misfit k d D Z O i + ridge d lam O i) / INR k in
    0 < v /\ precision k d D (fun a b => if Nat.eqb a b then lam * lam else 0) v (nth i Ps []).
Proof.
  intros HV HR HD Hlam E. cbn zeta. unfold l2_posterior in E. destruct (l2_solve s) as [O'|] eqn:ES; [|discriminate]. cbn [bind] in E.
  destruct (l2_solves svd s D Z lam O' HV HR HD Hlam ES) as ((HO & _) & _).
  destruct (l2_regresidual_ok svd s D Z lam O' HV HR HD Hlam HO) as (rs & Ers & HL & Hrs).
  unfold odata in HD. destruct (l2_pre s) as [p|] eqn:EP; [|discriminate]. unfold sp_data in HD. injection HD as HD1 HD2.
  rewrite Hlam in E. rewrite Ers in E. cbn [bind] in E. destruct (check_sigmas rs) as [sg|] eqn:EC; [|discriminate]. cbn [bind] in E.
  apply check_sigmas_ok in EC. destruct EC as [-> Hsg]. injection E as <- <-.
  destruct (l2_reach_ok svd s HV HR p EP) as (k & d & r & Phi & HP). destruct (pre_dims _ _ _ _ _ _ HP) as (Ek & Ed & Er).
  destruct HP as (Hk & Hd & Hr & HmD & HmZ & _). rewrite HD1 in *. rewrite HD2 in *. rewrite Ek, Ed, Er in *.
  split; [reflexivity|]. split; [rewrite !map_length; exact HL|]. intros i Hi. rewrite <- Hrs by auto.
  assert (Hge : eps <= vget rs i). { apply Hsg. unfold vget. apply nth_In. unfold is_vec in HL. lia. }
  split. { apply Rdiv_lt_0_compat; [pose proof eps_pos; lra|apply lt_0_INR; lia]. }
  unfold is_vec in HL. rewrite (nth_map_in _ _ i [] 0) by (rewrite map_length; lia). rewrite (nth_map_in _ rs i 0 0) by lia.
  apply precision_l2; auto.
Qed.
Lemma ld_posterior_ok svd s D Z regs O Ps : svd_spec svd -> ld_reach svd s -> odata (ld_pre s) = Some (D, Z) -> ld_reg s = Some regs ->
  length regs = nrows Z -> ld_posterior s = Ok (O, Ps) ->
  let k := nrows D in let d := ncols D in let r := nrows Z in
  ld_solve s = Ok O /\ length Ps = r /\
  forall i, (i < r)%nat -> let v := (misfit k d D Z O i + ridge d (vget regs i) O i) / INR k in
    0 < v /\ precision k d D (fun a b => if Nat.eqb a b then vget regs i * vget regs i else 0) v (nth i Ps []).
Proof.
  intros HV HR HD Hlam Hregs E. cbn zeta. unfold ld_posterior in E. destruct (ld_solve s) as [O'|] eqn:ES; [|discriminate]. cbn [bind] in E.
  destruct (ld_solves svd s D Z regs O' HV HR HD Hlam Hregs ES) as ((HO & _) & _).
  destruct (ld_regresidual_ok svd s D Z regs O' HV HR HD Hlam Hregs HO) as (rs & Ers & HL & Hrs).
  unfold odata in HD. destruct (ld_pre s) as [p|] eqn:EP; [|discriminate]. unfold sp_data in HD. injection HD as HD1 HD2.
  rewrite Hlam in E. rewrite Ers in E. cbn [bind] in E. destruct (check_sigmas rs) as [sg|] eqn:EC; [|discriminate]. cbn [bind] in E.
  apply check_sigmas_ok in EC. destruct EC as [-> Hsg]. injection E as <- <-.
  destruct (ld_reach_ok svd s HV HR p EP) as (k & d & r & Phi & HP). destruct (pre_dims _ _ _ _ _ _ HP) as (Ek & Ed & Er).
  destruct HP as (Hk & Hd & Hr & HmD & HmZ & _). rewrite HD1 in *. rewrite HD2 in *. rewrite Ek, Ed, Er in *. unfold is_vec in HL.
  split; [reflexivity|]. split; [rewrite map2_length' by (rewrite map_length; lia); exact Hregs|]. intros i Hi. rewrite <- Hrs by auto.
  assert (Hge : eps <= vget rs i). { apply Hsg. unfold vget. apply nth_In. lia. }
  split. { apply Rdiv_lt_0_compat; [pose proof eps_pos; lra|apply lt_0_INR; lia]. }
  rewrite (nth_map2 _ _ _ i 0 0 []) by (rewrite ?map_length; lia). rewrite (nth_map_in _ rs i 0 0) by lia.
  apply precision_l2; auto.
Qed.
Lemma tk_posterior_ok lst slv s D Z G O Ps : lstsq_spec lst (tk_opts s) -> solve_spec slv -> tk_reach s ->
  tk_data s = Some (D, Z) -> tk_reg s = Some G -> is_mat (ncols D) (ncols D) G -> tk_posterior lst slv s = Ok (O, Ps) ->
  let k := nrows D in let d := ncols D in let r := nrows Z in
  tk_solve lst slv s = Ok O /\ length Ps = r /\
  forall i, (i < r)%nat -> let v := (misfit k d D Z O i + tikpen d G O i) / INR k in
    0 < v /\ precision k d D (fun a b => bsum d (fun c => mget G c a * mget G c b)) v (nth i Ps []).
Proof.
  intros HV HS HR HD HG HGm E. cbn zeta. unfold tk_posterior in E. destruct (tk_solve lst slv s) as [O'|] eqn:ES; [|discriminate]. cbn [bind] in E.
  destruct (tk_solves lst slv s D Z G O' HV HS HR HD HG HGm ES) as ((HO & _) & _).
  destruct (tk_regresidual_ok s D Z G O' HR HD HG HGm HO) as (rs & Ers & HL & Hrs).
  rewrite HD, HG in E. rewrite Ers in E. cbn [bind] in E. destruct (check_sigmas rs) as [sg|] eqn:EC; [|discriminate]. cbn [bind] in E.
  apply check_sigmas_ok in EC. destruct EC as [-> Hsg]. injection E as <- <-.
  destruct (tk_reach_ok s HR D Z HD) as (_ & k & d & r & HDm). destruct (dims_eq _ _ _ _ _ HDm) as (Ek & Ed & Er).
  destruct HDm as (Hk & Hd & Hr & HmD & HmZ). rewrite Ek, Ed, Er in *. unfold is_vec in HL.
  split; [reflexivity|]. split; [rewrite !map_length; exact HL|]. intros i Hi. rewrite <- Hrs by auto.
  assert (Hge : eps <= vget rs i). { apply Hsg. unfold vget. apply nth_In. lia. }
  split. { apply Rdiv_lt_0_compat; [pose proof eps_pos; lra|apply lt_0_INR; lia]. }
  rewrite (nth_map_in _ _ i [] 0) by (rewrite map_length; lia). rewrite (nth_map_in _ rs i 0 0) by lia.
  apply precision_tk; auto.
Qed.
Lemma td_posterior_ok lst slv s D Z Gs O Ps : lstsq_spec lst no_opts -> solve_spec slv -> td_reach s ->
  td_data s = Some (D, Z) -> td_reg s = Some Gs -> length Gs = nrows Z -> Forall (is_mat (ncols D) (ncols D)) Gs -> td_posterior lst slv s = Ok (O, Ps) ->
  let k := nrows D in let d := ncols D in let r := nrows Z in
  td_solve lst slv s = Ok O /\ length Ps = r /\
  forall i, (i < r)%nat -> let v := (misfit k d D Z O i + tikpen d (nth i Gs []) O i) / INR k in
    0 < v /\ precision k d D (fun a b => bsum d (fun c => mget (nth i Gs []) c a * mget (nth i Gs []) c b)) v (nth i Ps []).
Proof.
  intros HV HS HR HD HG HGL HGm E. cbn zeta. unfold td_posterior in E. destruct (td_solve lst slv s) as [O'|] eqn:ES; [|discriminate]. cbn [bind] in E.
  destruct (td_solves lst slv s D Z Gs O' HV HS HR HD HG HGL HGm ES) as ((HO & _) & _).
  destruct (td_regresidual_ok s D Z Gs O' HR HD HG HGL HGm HO) as (rs & Ers & HL & Hrs).
  rewrite HD, HG in E. rewrite Ers in E. cbn [bind] in E. destruct (check_sigmas rs) as [sg|] eqn:EC; [|discriminate]. cbn [bind] in E.
  apply check_sigmas_ok in EC. destruct EC as [-> Hsg]. injection E as <- <-.
  destruct (td_reach_ok s HR D Z HD) as (_ & k & d & r & HDm). destruct (dims_eq _ _ _ _ _ HDm) as (Ek & Ed & Er).
  destruct HDm as (Hk & Hd & Hr & HmD & HmZ). rewrite Ek, Ed, Er in *. unfold is_vec in HL.
  split; [reflexivity|]. split; [rewrite map2_length' by (rewrite map_length; lia); exact HGL|]. intros i Hi. rewrite <- Hrs by auto.
  assert (Hge : eps <= vget rs i). { apply Hsg. unfold vget. apply nth_In. lia. }
  split. { apply Rdiv_lt_0_compat; [pose proof eps_pos; lra|apply lt_0_INR; lia]. }
  rewrite (nth_map2 _ _ _ i [] 0 []) by (rewrite ?map_length; lia). rewrite (nth_map_in _ rs i 0 0) by lia.
  apply precision_tk; auto. rewrite Forall_forall in HGm. apply HGm. apply nth_In. lia.
Qed.

(* ---- C38: the setter of num_svdmodes ---- *)
Lemma ts_max_ok svd s D Z : svd_spec svd -> ts_reach svd s -> odata (ts_pre s) = Some (D, Z) ->
  ts_max s = Some (Nat.min (nrows D) (ncols D)) /\ (0 < nrows D)%nat /\ (0 < ncols D)%nat.
Proof.
  intros HV HR HD. unfold ts_max. unfold odata in HD. destruct (ts_pre s) as [p|] eqn:EP; [|discriminate].
  destruct (ts_reach_ok svd s HV HR p EP) as (k & d & r & Phi & n & HP & _ & _).
  unfold sp_data in HD. injection HD as <- <-. destruct (pre_dims _ _ _ _ _ _ HP) as (Ek & Ed & Er).
  destruct HP as (Hk & Hd & Hr & HmD & HmZ & HS & HZ). rewrite Ek, Ed.
  destruct (svd_fun svd k d (sp_D p) Phi (sp_svals p) (sp_PsiT p) HV Hk Hd HmD HS) as (HPhi & _).
  assert (HZP : is_mat r (Nat.min k d) (sp_ZPhi p)) by (rewrite HZ; apply (is_mat_matmul r k); auto).
  split; [|auto]. rewrite (ncols_is_mat _ _ _ HZP) by auto. reflexivity.
Qed.
Lemma ts_set_ok svd s D Z n : svd_spec svd -> ts_reach svd s -> odata (ts_pre s) = Some (D, Z) ->
  let q := Z.of_nat (Nat.min (nrows D) (ncols D)) in
  ((q < n)%Z -> ts_set s (Some n) = (s, Err ValueError)) /\
  ((0 < n <= q)%Z -> snd (ts_set s (Some n)) = Ok tt /\ ts_modes (fst (ts_set s (Some n))) = Some n /\ ts_pre (fst (ts_set s (Some n))) = ts_pre s) /\
  ((- q <= n <= 0)%Z -> snd (ts_set s (Some n)) = Ok tt /\ ts_modes (fst (ts_set s (Some n))) = Some (q + n)%Z /\ ts_pre (fst (ts_set s (Some n))) = ts_pre s) /\
  snd (ts_set s None) = Ok tt /\ ts_modes (fst (ts_set s None)) = Some q /\ ts_pre (fst (ts_set s None)) = ts_pre s.
Proof.
  intros HV HR HD. cbn zeta. destruct (ts_max_ok svd s D Z HV HR HD) as (EM & Hk & Hd). unfold ts_set. rewrite EM.
  set (q := Z.of_nat (Nat.min (nrows D) (ncols D))). assert (0 < q)%Z by (unfold q; lia).
  split; [|split; [|split]].
  - intros K. replace (n <=? 0)%Z with false by (symmetry; apply Z.leb_gt; lia). replace (q <? n)%Z with true by (symmetry; apply Z.ltb_lt; lia). reflexivity.
  - intros K. replace (n <=? 0)%Z with false by (symmetry; apply Z.leb_gt; lia). replace (q <? n)%Z with false by (symmetry; apply Z.ltb_ge; lia). auto.
  - intros K. replace (n <=? 0)%Z with true by (symmetry; apply Z.leb_le; lia). replace (q <? q + n)%Z with false by (symmetry; apply Z.ltb_ge; lia). auto.
  - auto.
Qed.
(* fit with a number of modes chosen before: clipped, or counted from the end *)
Lemma ts_fit_ok svd s D Z s' : svd_spec svd -> ts_reach svd s -> good_arr D -> good_arr Z -> ts_fit svd s D Z = Ok s' ->
  exists D' Z', odata (ts_pre s') = Some (D', Z') /\ D = M D' /\ Z' = atleast_2d Z /\
  let q := Z.of_nat (Nat.min (nrows D') (ncols D')) in
  ts_modes s' = Some (match ts_modes s with None => q | Some n => if (n <=? 0)%Z then (q + n)%Z else Z.min n q end).
Proof.
  intros HV HR HgD HgZ E. pose proof (tsr_fit svd s D Z s' HR HgD HgZ E) as HR'.
  unfold ts_fit in E. destruct (svd_fit svd D Z) as [p|] eqn:EF; [|discriminate]. cbn [bind] in E. injection E as <-.
  destruct (svd_fit_ok svd D Z p HgD HgZ HV EF) as (-> & EZ & _).
  exists (sp_D p), (sp_Z p). split; [reflexivity|]. split; [reflexivity|]. split; [exact EZ|]. cbn zeta.
  destruct (ts_max_ok svd _ (sp_D p) (sp_Z p) HV HR' eq_refl) as (EM & Hk & Hd). cbn in EM. injection EM as EM. cbn [ts_modes]. rewrite EM.
  f_equal. set (q := Nat.min (nrows (sp_D p)) (ncols (sp_D p))). assert (0 < q)%nat by (unfold q; lia). destruct (ts_modes s) as [n|].
  - destruct (Z.leb_spec n 0).
    + destruct (Z.ltb_spec (Z.of_nat q) (Z.of_nat q + n)); lia.
    + destruct (Z.ltb_spec (Z.of_nat q) n); lia.
  - destruct (Z.leb_spec (Z.of_nat q) 0); [lia|]. destruct (Z.ltb_spec (Z.of_nat q) (Z.of_nat q)); lia.
Qed.
(* ts_solves, for a nonnegative number of modes *)
Lemma ts_solves_n svd s D Z O n : svd_spec svd -> ts_reach svd s -> odata (ts_pre s) = Some (D, Z) -> ts_modes s = Some (Z.of_nat n) -> ts_solve s = Ok O ->
  let k := nrows D in let d := ncols D in let r := nrows Z in
  (n <= Nat.min k d)%nat /\
  exists Dn, is_mat k d Dn /\ rank_at_most k d n Dn /\
    (forall B, is_mat k d B -> rank_at_most k d n B -> dist2 k d D Dn <= dist2 k d D B) /\
    (n = Nat.min k d -> Dn = D) /\
    row_minimizer r d (misfit k d Dn Z) O /\ row_shortest r d (misfit k d Dn Z) O.
Proof.
  intros HV HR HD HM ES. cbn zeta. destruct (ts_solves svd s D Z O HV HR HD ES) as (n' & HM' & Hle & HH). rewrite HM in HM'. injection HM' as <-.
  split; [lia|]. replace (py_index (Nat.min (nrows D) (ncols D)) (Z.of_nat n)) with n in HH; [exact HH|].
  unfold py_index. destruct (Z.ltb_spec (Z.of_nat n) 0); [lia|]. lia.
Qed.

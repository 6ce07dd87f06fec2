(* RecoverMono.v -- a discrete model fitted to a trajectory that some operators produce reproduces the trajectory (C75). *)
From Coq Require Import ZArith Lra Lia List.
From Verif Require Import LinAlg MatAlg OpsProofs MonoFinal MonoPredict MonoStmts ReprojFit ReprojFinal.
From Verif Require Import SpecReproj.
#[local] Open Scope nat_scope.

Lemma residual_fun d r k Q Z U x y : residual d r k Q Z U x -> residual d r k Q Z U y -> x = y.
Proof.
  intros (f & Hf & ->) (g & Hg & ->). apply bsum_ext. intros j Hj. apply bsum_ext. intros i Hi. destruct (Hf j Hj) as [A _]. destruct (Hg j Hj) as [B _]. rewrite A in B. injection B as ->. reflexivity.
Qed.
Lemma residual_zero d r k Q Z U : residual d r k Q Z U 0 -> forall j, j < k -> rhs d (V (colv r Q j)) (ucol U j) = Ok (V (colv r Z j)).
Proof.
  intros (f & Hf & E) j Hj. destruct (Hf j Hj) as [E1 L]. rewrite E1. do 2 f_equal. apply (vec_ext r); auto; try apply is_vec_colv. intros i Hi. rewrite vget_colv by auto.
  symmetry in E. pose proof (bsum_nonneg_0 _ _ ltac:(intros; apply bsum_nonneg; intros; apply Rle_0_sqr) E j Hj) as H1. cbv beta in H1.
  pose proof (bsum_nonneg_0 _ _ ltac:(intros; apply Rle_0_sqr) H1 i Hi) as H2. cbv beta in H2. apply Rsqr_0_uniq in H2. lra.
Qed.

(* fit(): some values of the operators to be learned produce the left-hand sides; then so do the learned ones *)
Theorem fit_exact X d states lhs inputs d' p r m k l :
  lsx_ok X -> reach X d -> m_intrusive d = false -> good_arr states -> good_arr lhs -> valid_in inputs ->
  fit X d states lhs inputs = (d', Ok tt) -> m_solver d = Some (LPlain p) ->
  m_r d' = Some r -> m_m d' = Some m -> is_mat r k (atleast_2d states) -> candidate r m d' l ->
  (forall j, j < k -> rhs (with_ops l d') (V (colv r (atleast_2d states) j)) (ucol inputs j) = Ok (V (colv r (atleast_2d lhs) j))) ->
  forall j, j < k -> rhs d' (V (colv r (atleast_2d states) j)) (ucol inputs j) = Ok (V (colv r (atleast_2d lhs) j)).
Proof.
  intros HX HR Hi G1 G2 G3 EF Es Er Em HQ HC HEx.
  destruct (fit_best X d states lhs inputs d' (LPlain p) HX HR Hi G1 G2 G3 EF Es) as [(r1 & m1 & k1 & O & Er1 & Em1 & Hk & HQ1 & HZ & EO & (x & Hx) & HB) _].
  assert (r1 = r) by congruence. assert (m1 = m) by congruence. subst r1 m1.
  intros j Hj. assert (Hk1 : k1 = k \/ r = 0).
  { destruct r as [|r']; auto. left. destruct HQ1 as [HL F1], HQ as [_ F2]. destruct (atleast_2d states) as [|row Q']; [discriminate HL|].
    inversion F1 as [|? ? A1 A2 A3]; subst. inversion F2 as [|? ? B1 B2]; subst. congruence. }
  assert (Hr0 : r <> 0).
  { intros ->. destruct states as [v|S]; cbn [atleast_2d] in HQ1; destruct HQ1 as [L _]; [discriminate L|]. destruct S; [|discriminate L]. destruct G1 as (a & b & Ha & _ & [L1 _]). cbn in L1. lia. }
  destruct Hk1 as [->|K]; [|congruence].
  destruct (HB l HC) as (O' & y & _ & Hy & HP). destruct (HP _ eq_refl) as [HP1 _]. specialize (HP1 x Hx). rewrite !(bsum_0 r) in HP1 by auto.
  assert (Y0 : residual (with_ops l d') r k (atleast_2d states) (atleast_2d lhs) inputs 0).
  { exists (fun j => colv r (atleast_2d lhs) j). split.
    - intros j0 Hj0. split; [auto|apply is_vec_colv].
    - symmetry. apply bsum_0. intros j0 Hj0. apply bsum_0. intros i Hii. rewrite vget_colv by auto. unfold Rsqr. ring. }
  assert (y = 0%R) by (eapply residual_fun; eauto). subst y.
  assert (X0 : (0 <= x)%R). { destruct Hx as (f & _ & ->). apply bsum_nonneg. intros. apply bsum_nonneg. intros. apply Rle_0_sqr. }
  assert (x = 0%R) by lra. subst x. apply residual_zero with (k := k); auto.
Qed.

(* DiscreteModel.fit(Q) followed by predict() *)
Theorem reproduces X d Q r k m inputs d' p l :
  lsx_ok X -> reach X d -> m_intrusive d = false -> 0 < r -> 1 < k -> is_mat r k Q -> driven d' (k - 1) inputs -> valid_in inputs ->
  discrete_fit X d (M Q) None inputs = (d', Ok tt) -> m_solver d = Some (LPlain p) -> m_m d' = Some m -> candidate r m d' l ->
  (forall j, j + 1 < k -> rhs (with_ops l d') (V (colv r Q j)) (step_input d' (option_map UArr inputs) j) = Ok (V (colv r Q (j + 1)))) ->
  predict d' (V (colv r Q 0)) (Z.of_nat k) (option_map UArr inputs) = Ok Q.
Proof.
  intros HX HR Hi Hr Hk HQ HD HV HFit Es Em HC HEx. set (S1 := map (@removelast R) Q). set (D1 := map (@tl R) Q). set (U := option_map (cut (k - 1)) inputs).
  assert (HSm : is_mat r (k - 1) S1) by (apply is_mat_removelast; auto). assert (HDm : is_mat r (k - 1) D1) by (apply is_mat_tl; auto).
  assert (HFit' : fit X d (M S1) (M D1) U = (d', Ok tt)).
  { unfold discrete_fit in HFit. destruct (m_frozen d); [discriminate|]. unfold U. destruct inputs as [u|]; auto. cbn [option_map]. rewrite <- (ncols_is_mat r (k - 1) S1 HSm Hr). exact HFit. }
  assert (HV' : valid_in U). { unfold U. destruct inputs as [u|]; auto. cbn [option_map valid_in]. apply good_cut; auto. lia. }
  assert (G1 : good_arr (M S1)) by (exists r, (k - 1); split; [lia|split; [lia|auto]]).
  assert (G2 : good_arr (M D1)) by (exists r, (k - 1); split; [lia|split; [lia|auto]]).
  assert (ES : forall j, j < k - 1 -> colv r S1 j = colv r Q j).
  { intros j Hj. apply (vec_ext r); try apply is_vec_colv. intros i Hi1. rewrite !vget_colv by auto. apply (mget_removelast r k); auto. }
  assert (ED : forall j, j < k - 1 -> colv r D1 j = colv r Q (j + 1)).
  { intros j Hj. apply (vec_ext r); try apply is_vec_colv. intros i Hi1. rewrite !vget_colv by auto. apply (mget_tl r k); auto. }
  assert (EU : forall j, j < k - 1 -> ucol U j = step_input d' (option_map UArr inputs) j).
  { intros j Hj. unfold U, step_input. destruct HD as [(-> & ->)|(-> & u & m0 & k' & -> & _)]; auto. cbn [option_map]. rewrite ucol_cut by auto. reflexivity. }
  destruct (fit_ok_fitted X d (M S1) (M D1) U d' HX (reach_minv X d HX HR) Hi G1 G2 HV' HFit') as (d1 & r1 & m1 & k1 & U1 & _ & _ & _ & HFt & ERf & _).
  destruct (refit_minimises X d1 d' r1 m1 k1 _ _ U1 U HX HFt ERf) as (HFt' & HTr & _).
  assert (Er1 := ft_r _ _ _ _ _ _ _ _ _ HFt'). assert (HQ1 := proj1 (ft_data _ _ _ _ _ _ _ _ _ HFt')). cbn [atleast_2d] in HQ1.
  assert (r1 = r) by (destruct HQ1 as [A _], HSm as [B _]; congruence). subst r1.
  assert (HX1 := fit_exact X d (M S1) (M D1) U d' p r m (k - 1) l HX HR Hi G1 G2 HV' HFit' Es Er1 Em HSm HC). cbn [atleast_2d] in HX1.
  assert (HRec : forall j, j < k - 1 -> rhs d' (V (colv r Q j)) (step_input d' (option_map UArr inputs) j) = Ok (V (colv r Q (j + 1)))).
  { intros j Hj. rewrite <- (EU j Hj), <- (ES j Hj), <- (ED j Hj). apply HX1; auto. intros j0 Hj0. rewrite (ES j0 Hj0), (ED j0 Hj0), (EU j0 Hj0). apply HEx. lia. }
  assert (HR' : reach X d').
  { apply (reach_step X d (EFit (M S1) (M D1) U) d' (Ok tt)); auto. cbn [valid_event]. auto. exact I. }
  assert (HT : trained X d' r) by (split; [exact HX|split; [exact HR'|split; [exact HTr|exact Er1]]]).
  assert (HE : enough_inputs d' (option_map UArr inputs) k).
  { intros Hh. destruct HD as [(K & _)|(_ & u & m0 & k' & -> & Em1 & HU & Hk')]; [congruence|]. exists u, m0, k'. auto. }
  destruct (C30_rec X d' r (colv r Q 0) k _ HT ltac:(apply is_vec_colv) HE ltac:(lia)) as (Q2 & EP & HQ2 & E0 & HR2). rewrite EP. f_equal.
  assert (HCol : forall j, j < k -> colv r Q2 j = colv r Q j).
  { induction j as [|j IH]; intros Hj; auto. specialize (IH ltac:(lia)). specialize (HR2 j ltac:(lia)). specialize (HRec j ltac:(lia)). rewrite IH, HRec in HR2. injection HR2 as E. rewrite !Nat.add_1_r in E. auto. }
  apply (mat_ext r k); auto. intros i j Hi1 Hj. rewrite <- (vget_colv r Q2 j i Hi1), <- (vget_colv r Q j i Hi1). rewrite HCol; auto.
Qed.

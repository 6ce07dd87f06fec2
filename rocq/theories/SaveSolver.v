(* SaveSolver.v -- proofs of C46 for the least-squares solvers. *)
From Coq Require Import String ZArith Lia Lra.
From Verif Require Import AffProofs.
From Verif Require Export SaveOps.
#[local] Open Scope string_scope.
#[local] Open Scope nat_scope.
#[local] Open Scope list_scope.

Definition dataok (d : option (mat * mat)) : Prop := match d with None => True | Some (D, Z) => base_fit (M D) (M Z) = Ok (D, Z) end.
Definition svinv (s : lsq) : Prop :=
  match s with
  | LPlain p => o_driver (pl_opts p) <> Some "NULL" /\ dataok (pl_data p)
  | LL2 p => (forall x, l2_reg p = Some x -> (0 <= x)%R) /\ dataok (odata (l2_pre p))
  | LL2D p => (forall v, ld_reg p = Some v -> negs v = false) /\ dataok (odata (ld_pre p))
  | LTik p => o_driver (tk_opts p) <> Some "NULL" /\ dataok (tk_data p) /\ (tk_data p = None -> tk_pre p = None)
  | LTikD p => dataok (td_data p) /\ (td_data p = None -> td_pre p = None)
  | LTsvd p => dataok (odata (ts_pre p))
  | LTls p => dataok (tl_data p) /\ (tl_data p = None -> tl_sol p = None)
  end.
Lemma base_ok D Z D' Z' : base_fit D Z = Ok (D', Z') -> base_fit (M D') (M Z') = Ok (D', Z').
Proof. unfold base_fit. destruct D as [v|D]; [discriminate|]. destruct (ncols (atleast_2d Z) =? nrows D) eqn:Q; [|discriminate]. intros H; inversion H; subst. cbn [atleast_2d]. now rewrite Q. Qed.
Lemma svd_fit_ok svd D Z p : svd_fit svd D Z = Ok p -> dataok (Some (sp_data p)).
Proof. unfold svd_fit. destruct (base_fit D Z) as [[D' Z']|] eqn:B; [|discriminate]. cbn [bind fst snd]. destruct (svd D') as [[[U sv] V]|]; [|discriminate]. cbn [bind].
  destruct (matmul_r Z' U); [|discriminate]. cbn [bind]. intros H; inversion H; subst. cbn. eapply base_ok; eauto. Qed.
Lemma negs_false v : (forall i, i < length v -> (0 <= vget v i)%R) -> negs v = false.
Proof.
  intros H. unfold negs. apply not_true_is_false. intros E. apply existsb_exists in E. destruct E as [x [HI HX]].
  apply In_nth with (d := 0%R) in HI. destruct HI as [i [Hi E]]. specialize (H i Hi). unfold vget in H. rewrite E in H. destruct (Rlt_dec x 0); [lra|discriminate].
Qed.
Lemma made_svinv s : made_solver s -> svinv s.
Proof.
  intros [H1 H2]. destruct s as [p|p|p|p|p|p|p]; cbn in *; rewrite ?H1; cbn; auto.
  - split; auto. intros v E. apply negs_false; eauto.
  - destruct H1 as [H1 H3]. rewrite H1; cbn; auto.
  - destruct H1 as [H1 H3]. rewrite H1; cbn; auto.
  - destruct H1 as [H1 H3]. rewrite H1; cbn; auto.
Qed.
Lemma setreg_svinv s g : svinv s -> svinv (fst (lsq_setreg s g)) /\ s_class (fst (lsq_setreg s g)) = s_class s.
Proof.
  intros H. destruct s as [p|p|p|p|p|p|p], g as [g|g|g|g]; cbn; auto; cbn in H.
  - unfold l2_set. destruct g; cbn; auto; [split; auto; split; [discriminate|tauto]|]. destruct (Rlt_dec _ _); cbn; auto. split; auto. split; [|tauto]. intros y E; inversion E; subst; lra.
  - unfold ld_set. destruct g; cbn; auto; [split; auto; split; [discriminate|tauto]|]. destruct (negs _) eqn:Q; cbn; auto. split; auto. split; [|tauto]. intros y E; inversion E; subst; auto.
  - unfold tk_set. destruct g as [[v|G]|]; cbn; auto. destruct (negs v); cbn; auto.
  - unfold td_set. destruct g as [l|]; cbn; auto. destruct (mapM td_one l); cbn; auto.
  - unfold ts_set. destruct g as [z|], (ts_max p) as [n|]; cbn; auto. destruct (_ <? _)%Z; cbn; auto.
Qed.
Lemma fit_svinv X s D Z : svinv s -> svinv (fst (lsq_fit X s D Z)) /\ s_class (fst (lsq_fit X s D Z)) = s_class s.
Proof.
  intros H. destruct s as [p|p|p|p|p|p|p]; cbn in H |- *.
  - unfold keep, plain_fit. destruct (base_fit D Z) as [[D' Z']|] eqn:B; cbn; auto. split; auto. split; [tauto|]. eapply base_ok; eauto.
  - unfold keep, l2_fit. destruct (svd_fit _ D Z) as [x|] eqn:B; cbn; auto. split; auto. split; [tauto|]. eapply svd_fit_ok; eauto.
  - unfold wrap, ld_fit. destruct (svd_fit _ D Z) as [x|] eqn:B; cbn -[dataok]; auto. apply svd_fit_ok in B. split; auto. split; [tauto|exact B].
  - unfold wrap, tk_fit. destruct (base_fit D Z) as [[D' Z']|e] eqn:B; cbn; auto. apply base_ok in B.
    destruct (match tk_reg p with None => _ | Some _ => _ end); cbn; repeat split; auto; try tauto; discriminate.
  - unfold wrap, td_fit. destruct (base_fit D Z) as [[D' Z']|e] eqn:B; cbn; auto. apply base_ok in B.
    destruct (match td_reg p with None => _ | Some _ => _ end); cbn; repeat split; auto; try tauto; discriminate.
  - unfold keep, ts_fit. destruct (svd_fit _ D Z) as [x|] eqn:B; cbn -[dataok]; auto. apply svd_fit_ok in B. auto.
  - unfold wrap, tls_fit. destruct (base_fit D Z) as [[D' Z']|e] eqn:B; cbn -[dataok]; auto. apply base_ok in B.
    repeat match goal with |- context [match ?x with _ => _ end] => destruct x end; cbn -[dataok]; (split; [split; [exact B|discriminate]|reflexivity]).
Qed.
Lemma srun_svinv X l : forall s, svinv s -> svinv (srun X s l) /\ s_class (srun X s l) = s_class s.
Proof.
  induction l as [|ev l IH]; intros s H; [auto|]. cbn. assert (K : svinv (fst (sstep X s ev)) /\ s_class (fst (sstep X s ev)) = s_class s).
  { destruct ev; cbn; [now apply fit_svinv|now apply setreg_svinv]. }
  destruct K as [K1 K2]. destruct (IH _ K1). split; [auto|congruence].
Qed.

Ltac halt := match goal with H : _ = (_, Done, _) |- _ => cbn in H; discriminate H end.
Ltac got := match goal with H : _ = (_, Done, _) |- _ => cbn in H; inversion H; subst; clear H end.
Lemma data_ok_eq D Z : dataok (Some (D, Z)) -> base_fit (M D) (M Z) = Ok (D, Z). Proof. auto. Qed.
Lemma is_null_driver d : d <> Some "NULL" -> (if is_null (opt_attr AvS d) then Ok None else do s <- as_str (opt_attr AvS d); Ok (Some s)) = Ok d.
Proof. destruct d as [s|]; [|reflexivity]. intros H. cbn. destruct (String.eqb s "NULL") eqn:Q; [apply String.eqb_eq in Q; congruence|reflexivity]. Qed.
Lemma solver_loads I s : svinv s -> loads_as I (SvSolver s) (lsq_load (s_class s)) s.
Proof.
  intros H. apply loads_as_w. intros g [a [l [-> E]]]. cbn [events_of] in E. destruct s as [p|p|p|p|p|p|p]; cbn [svinv s_class] in *.
  - destruct p as [[c dr] [[D Z]|]]; cbn [pl_opts pl_data o_driver] in H; destruct H as [H1 H2]; got; cbn -[base_fit is_null opt_attr];
      (replace (if is_null (opt_attr AvR c) then _ else _) with (Ok c) by (destruct c; reflexivity)); cbn [bind]; rewrite (is_null_driver _ H1); cbn -[base_fit].
    + cbn -[base_fit] in H2. unfold data_load. cbn -[base_fit]. rewrite H2. reflexivity.
    + reflexivity.
  - destruct p as [[x|] [[D Z sv A B]|]]; cbn [l2_reg l2_pre odata sp_data sp_D sp_Z] in H; destruct H as [H1 H2]; got; cbn -[base_fit l2_set]; unfold l2_set; cbn -[base_fit];
    try (destruct (Rlt_dec x 0); [specialize (H1 x eq_refl); lra|]); cbn -[base_fit]; unfold svd_load, data_load; cbn -[base_fit]; cbn -[base_fit] in H2; rewrite ?H2; reflexivity.
  - destruct p as [[x|] [[D Z sv A B]|]]; cbn [ld_reg ld_pre odata sp_data sp_D sp_Z] in H; destruct H as [H1 H2]; got; cbn -[base_fit ld_set]; unfold ld_set; cbn -[base_fit negs];
    try (rewrite (H1 x eq_refl)); cbn -[base_fit]; unfold svd_load, data_load; cbn -[base_fit]; cbn -[base_fit] in H2; rewrite ?H2; reflexivity.
  - destruct p as [[G|] mt [c dr] [[D Z]|] [[A B C]|]]; cbn [tk_opts tk_data tk_pre o_driver] in H; destruct H as [H1 [H2 H3]]; try halt; try (specialize (H3 eq_refl); discriminate);
    got; cbn -[base_fit is_null opt_attr method_str]; unfold opts_load; cbn -[base_fit is_null opt_attr method_str];
      (replace (if is_null (opt_attr AvR c) then _ else _) with (Ok c) by (destruct c; reflexivity)); cbn [bind]; rewrite (is_null_driver _ H1); cbn -[base_fit method_str];
      unfold method_at; cbn -[base_fit method_str method_of]; (replace (method_of (method_str mt)) with (Ok mt) by (destruct mt; reflexivity)); cbn -[base_fit];
      unfold data_load, pads_load; cbn -[base_fit]; cbn -[base_fit] in H2; rewrite ?H2; reflexivity.
  - destruct p as [[Gs|] mt [[D Z]|] [[A B C]|]]; cbn [td_data td_pre] in H; destruct H as [H2 H3];
    unfold lsq_events in E; cbn [td_reg when] in E; try (destruct (same_shapes Gs); [|halt]); try halt; try (specialize (H3 eq_refl); discriminate);
    got; cbn -[base_fit method_str]; 
      unfold method_at; cbn -[base_fit method_str method_of td_set]; (replace (method_of (method_str mt)) with (Ok mt) by (destruct mt; reflexivity)); cbn -[base_fit td_set];
      try (unfold td_set; replace (mapM td_one (map M Gs)) with (Ok Gs) by (clear; induction Gs as [|G Gs IH]; [reflexivity|]; cbn; rewrite <- IH; reflexivity)); cbn -[base_fit];
      unfold data_load, pads_load; cbn -[base_fit]; cbn -[base_fit] in H2; rewrite ?H2; reflexivity.
  - destruct p as [[n|] [[D Z sv A B]|]]; cbn [ts_pre odata sp_data sp_D sp_Z] in H; try halt; got; cbn -[base_fit]; unfold svd_load, data_load; cbn -[base_fit]; cbn -[base_fit] in H; rewrite ?H; reflexivity.
  - destruct p as [[[D Z]|] [[O er co]|]]; cbn [tl_data tl_sol] in H; destruct H as [H1 H2]; try halt; try (specialize (H2 eq_refl); discriminate); got; cbn -[base_fit];
     unfold data_load; cbn -[base_fit]; cbn -[base_fit] in H1; rewrite ?H1; try reflexivity. cbn. destruct co; reflexivity.
Qed.
Lemma solver_back_any I X s l : made_solver s -> loads_as I (SvSolver (srun X s l)) (lsq_load (s_class s)) (srun X s l).
Proof. intros H. destruct (srun_svinv X l s (made_svinv s H)) as [A B]. rewrite <- B. now apply solver_loads. Qed.
(* what save() needs in order to return *)
Definition whole (s : lsq) : Prop :=
  match s with
  | LTik p => tk_data p <> None -> tk_pre p <> None
  | LTikD p => td_data p <> None -> td_pre p <> None
  | LTls p => tl_data p <> None -> tl_sol p <> None
  | _ => True
  end.
Lemma solver_saves I s : whole s -> plain_regs s -> saves I (SvSolver s).
Proof.
  intros H1 H2. assert (K : exists g, wexecs (events_of I (SvSolver s)) None ([], []) = (g, Done, None)).
  { cbn [events_of]. destruct s as [p|p|p|p|p|p|p]; cbn [whole plain_regs] in *.
    - destruct p as [[c dr] [[D Z]|]]; eexists; reflexivity.
    - destruct p as [[x|] [[D Z sv A B]|]]; eexists; reflexivity.
    - destruct p as [[x|] [[D Z sv A B]|]]; eexists; reflexivity.
    - destruct p as [[G|] mt [c dr] [[D Z]|] [[A B C]|]]; cbn in H1; try (exfalso; apply H1; congruence); eexists; reflexivity.
    - destruct p as [[Gs|] mt [[D Z]|] [[A B C]|]]; cbn in H1, H2; try (exfalso; apply H1; congruence); unfold lsq_events; cbn [td_reg when]; try rewrite (H2 Gs eq_refl); eexists; reflexivity.
    - destruct p as [[n|] [[D Z sv A B]|]]; cbn in H2; try congruence; eexists; reflexivity.
    - destruct p as [[[D Z]|] [[O er co]|]]; cbn in H1; try (exfalso; apply H1; congruence); eexists; reflexivity. }
  destruct K as [[a m] K]. eapply saves_from; eauto.
Qed.
Lemma made_whole s : made_solver s -> whole s.
Proof. intros [H _]. destruct s; cbn in *; auto; destruct H; congruence. Qed.
Lemma setreg_whole s g : whole s -> whole (fst (lsq_setreg s g)).
Proof.
  intros H. destruct s as [p|p|p|p|p|p|p], g as [g|g|g|g]; cbn; auto; cbn in H.
  - unfold tk_set. destruct g as [[v|G]|]; cbn; auto. destruct (negs v); cbn; auto.
  - unfold td_set. destruct g as [l|]; cbn; auto. destruct (mapM td_one l); cbn; auto.
Qed.
Lemma fit_whole X s D Z : whole s -> snd (lsq_fit X s D Z) = Ok tt -> whole (fst (lsq_fit X s D Z)).
Proof.
  intros H. destruct s as [p|p|p|p|p|p|p]; cbn in H |- *.
  - unfold keep. destruct (plain_fit p D Z); cbn; auto.
  - unfold keep. destruct (l2_fit _ p D Z); cbn; auto.
  - auto.
  - unfold wrap, tk_fit. destruct (base_fit D Z) as [[D' Z']|e] eqn:B; cbn; auto.
    destruct (match tk_reg p with None => _ | Some _ => _ end); cbn; [discriminate|discriminate].
  - unfold wrap, td_fit. destruct (base_fit D Z) as [[D' Z']|e] eqn:B; cbn; auto.
    destruct (match td_reg p with None => _ | Some _ => _ end); cbn; discriminate.
  - unfold keep. destruct (ts_fit _ p D Z); cbn; auto.
  - unfold wrap, tls_fit. destruct (base_fit D Z) as [[D' Z']|e] eqn:B; cbn; auto.
    repeat match goal with |- context [match ?x with _ => _ end] => destruct x; cbn; auto end; discriminate.
Qed.
Lemma srun_whole X l : forall s, whole s -> fits_returned X s l -> whole (srun X s l).
Proof.
  induction l as [|ev l IH]; intros s H HF; [auto|]. cbn in *. destruct HF as [H1 H2]. apply IH; auto.
  destruct ev as [D Z|g]; cbn in *; [|now apply setreg_whole]. apply fit_whole; auto. exact (H1 D Z eq_refl).
Qed.
Lemma solver_back I X s l : made_solver s -> fits_returned X s l -> plain_regs (srun X s l) ->
  comes_back I (SvSolver (srun X s l)) (lsq_load (s_class s)) (srun X s l).
Proof. intros H F P. split; [|now apply solver_back_any]. apply solver_saves; auto. apply srun_whole; auto. now apply made_whole. Qed.
(* the same class, regularizer and data, hence the same solution *)
(* ---- what cannot be saved ------------------------------------------------------------------------------------------------------ *)
Lemma modes_not_saved I p : ts_modes p = None -> cannot_be_saved I (SvSolver (LTsvd p)).
Proof.
  intros H. destruct p as [n p]. cbn in H. subst n. eapply not_saved_from; [reflexivity|]. discriminate.
Qed.
Lemma shapes_not_saved I p Gs : td_reg p = Some Gs -> same_shapes Gs = false -> cannot_be_saved I (SvSolver (LTikD p)).
Proof.
  intros H Q. eapply not_saved_from with (s := Raised ValueError); [|discriminate]. cbn [events_of lsq_events]. rewrite H. cbn [when]. rewrite Q. reflexivity.
Qed.
(* a first fit() that raises, because of the shape of the regularizer, leaves the solver unable to be saved *)
Lemma raising_not_saved I X p D Z e : tk_pre p = None -> lsq_fit X (LTik p) D Z = (fst (lsq_fit X (LTik p) D Z), Err e) -> base_fit D Z <> Err e ->
  cannot_be_saved I (SvSolver (fst (lsq_fit X (LTik p) D Z))).
Proof.
  intros H. unfold lsq_fit, wrap. intros F N. assert (K : exists dz, fst (tk_fit p D Z) = {| tk_reg := tk_reg p; tk_method := tk_method p; tk_opts := tk_opts p; tk_data := Some dz; tk_pre := None |}).
  { unfold tk_fit in *. destruct (base_fit D Z) as [[D' Z']|e'] eqn:B; [|cbn in F; congruence]. destruct (match tk_reg p with None => _ | Some _ => _ end); cbn in F; [discriminate|]. cbn. rewrite H. eauto. }
  destruct K as [dz ->]. cbn [fst]. destruct (tk_reg p), dz as [D' Z']; (eapply not_saved_from; [reflexivity|discriminate]).
Qed.

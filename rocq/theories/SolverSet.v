(* SolverSet.v -- which regularizers are accepted, and what they mean (C60). *)
From Verif Require AffProofs.
From Verif Require Export SpecReg SolverReg.
#[local] Open Scope R_scope.

Lemma negs_no_negative v : negs v = false <-> no_negative v.
Proof.
  unfold negs, no_negative. split.
  - intros H x Hx. destruct (Rlt_dec x 0) as [L|L]; [|lra]. exfalso. rewrite <- not_true_iff_false in H. apply H.
    apply existsb_exists. exists x. split; auto. destruct (Rlt_dec x 0); auto.
  - intros H. apply not_true_iff_false. intros K. apply existsb_exists in K. destruct K as (x & Hx & K).
    destruct (Rlt_dec x 0) as [L|L]; [|discriminate]. specialize (H x Hx). lra.
Qed.
Lemma meant_mdiag v : no_negative v -> meant (V v) (mdiag v).
Proof.
  intros H. cbn. split; auto. split; [apply is_mat_mdiag; reflexivity|]. intros i j Hi Hj. now apply (mget_mdiag v (length v)).
Qed.
Lemma meant_eq a G G' : meant a G -> meant a G' -> G = G'.
Proof.
  destruct a as [v|m]; cbn; [|congruence]. intros (_ & H1 & H2) (_ & H3 & H4).
  apply (mat_ext (length v) (length v)); auto. intros i j Hi Hj. now rewrite H2, H4.
Qed.
Lemma shape_square d G : shape_is d d G = true <-> square d G.
Proof. unfold shape_is, square. rewrite andb_true_iff, !Nat.eqb_eq. tauto. Qed.

Lemma l2_set_ok s g : snd (l2_set s g) = Ok tt <-> (g = RNone \/ exists x, g = RScalar x /\ 0 <= x).
Proof.
  destruct g as [|x|v|m]; cbn.
  - split; auto.
  - destruct (Rlt_dec x 0) as [L|L]; cbn; split; intros H; try discriminate; auto.
    + destruct H as [H|(y & [= <-] & H)]; [discriminate|lra].
    + right. exists x. split; auto. lra.
  - split; [discriminate|]. intros [H|(y & H & _)]; discriminate.
  - split; [discriminate|]. intros [H|(y & H & _)]; discriminate.
Qed.
Lemma l2_set_val s g : snd (l2_set s g) = Ok tt -> l2_pre (fst (l2_set s g)) = l2_pre s /\
  l2_reg (fst (l2_set s g)) = match g with RScalar x => Some x | _ => None end.
Proof. destruct g as [|x|v|m]; cbn; try discriminate; auto. destruct (Rlt_dec x 0); cbn; [discriminate|auto]. Qed.

Lemma ld_set_ok s g : snd (ld_set s g) = Ok tt <->
  (g = RNone \/ exists v, g = RVec v /\ no_negative v /\ forall D Z, odata (ld_pre s) = Some (D, Z) -> length v = nrows Z).
Proof.
  destruct g as [|x|v|m]; cbn.
  - split; auto.
  - split; [discriminate|]. intros [H|(y & H & _)]; discriminate.
  - destruct (negs v) eqn:EN; cbn.
    + split; [discriminate|]. intros [H|(y & [= <-] & H & _)]; [discriminate|]. apply negs_no_negative in H. congruence.
    + apply negs_no_negative in EN. unfold ld_check. destruct (ld_pre s) as [q|]; cbn.
      * unfold guard, sp_data. destruct (Nat.eqb_spec (length v) (nrows (sp_Z q))) as [E|E]; cbn; split; intros H; try discriminate; auto.
        -- right. exists v. split; auto. split; auto. now intros D Z [= <- <-].
        -- destruct H as [H|(y & [= <-] & _ & H)]; [discriminate|]. exfalso. apply E. now apply (H (sp_D q)).
      * split; auto. intros _. right. exists v. split; auto. split; auto. discriminate.
  - split; [discriminate|]. intros [H|(y & H & _)]; discriminate.
Qed.
Lemma ld_set_val s g : snd (ld_set s g) = Ok tt -> ld_pre (fst (ld_set s g)) = ld_pre s /\
  ld_reg (fst (ld_set s g)) = match g with RVec v => Some v | _ => None end.
Proof. destruct g as [|x|v|m]; cbn; try discriminate; auto. destruct (negs v); cbn; [discriminate|auto]. Qed.
Lemma ld_fit_ok svd s D Z : snd (ld_fit svd s D Z) = Ok tt ->
  ld_reg (fst (ld_fit svd s D Z)) = ld_reg s /\
  exists D' Z', odata (ld_pre (fst (ld_fit svd s D Z))) = Some (D', Z') /\ D = M D' /\ Z' = atleast_2d Z /\
  forall v, ld_reg s = Some v -> length v = nrows Z'.
Proof.
  unfold ld_fit, svd_fit, base_fit. destruct D as [d|D]; cbn; [discriminate|].
  destruct (Nat.eqb _ _); cbn; [|discriminate].
  destruct (svd D) as [[[P sv] Q]|]; cbn; [|discriminate].
  destruct (matmul_r (atleast_2d Z) P) as [ZP|]; cbn; [|discriminate]. intros H. split; auto.
  exists D, (atleast_2d Z). split; auto. split; auto. split; auto. intros v Ev. rewrite Ev in H. unfold ld_check, guard in H. cbn in H.
  unfold nrows. destruct (Nat.eqb_spec (length v) (length (atleast_2d Z))); auto. discriminate.
Qed.

Lemma tk_set_ok s g : snd (tk_set s g) = Ok tt <->
  match g with
  | None => True
  | Some a => exists G, meant a G /\ forall D Z, tk_data s = Some (D, Z) -> square (ncols D) G
  end.
Proof.
  assert (A : forall G, tk_check (tk_data s) G = Ok tt <-> forall D Z, tk_data s = Some (D, Z) -> square (ncols D) G).
  { intros G. unfold tk_check, guard. destruct (tk_data s) as [[D Z]|].
    - destruct (shape_is (ncols D) (ncols D) G) eqn:ES; cbn; split; auto.
      + intros _ D' Z' [= <- <-]. now apply shape_square.
      + discriminate.
      + intros H. specialize (H D Z eq_refl). apply shape_square in H. congruence.
    - split; auto. discriminate. }
  destruct g as [[v|G]|]; cbn [tk_set]; [| |split; auto].
  - destruct (negs v) eqn:EN; cbn [snd].
    + split; [discriminate|]. intros (G & (H & _) & _). apply negs_no_negative in H. congruence.
    + apply negs_no_negative in EN. rewrite A. split.
      * intros H. exists (mdiag v). split; auto. now apply meant_mdiag.
      * intros (G & HG & H). now rewrite (meant_eq _ _ _ (meant_mdiag v EN) HG).
  - cbn [snd]. rewrite A. split; [intros H; exists G; cbn; auto|]. intros (G' & -> & H). auto.
Qed.
Lemma tk_set_val s g : snd (tk_set s g) = Ok tt -> tk_data (fst (tk_set s g)) = tk_data s /\ tk_pre (fst (tk_set s g)) = tk_pre s /\
  tk_method (fst (tk_set s g)) = tk_method s /\ tk_opts (fst (tk_set s g)) = tk_opts s /\
  match g with None => tk_reg (fst (tk_set s g)) = None | Some a => exists G, tk_reg (fst (tk_set s g)) = Some G /\ meant a G end.
Proof.
  destruct g as [[v|G]|]; cbn [tk_set].
  - destruct (negs v) eqn:EN; cbn; [discriminate|]. intros _. do 4 (split; auto). exists (mdiag v). split; auto.
    apply (meant_mdiag v). now apply negs_no_negative.
  - cbn. intros _. do 4 (split; auto). exists G. auto.
  - cbn. auto.
Qed.
Lemma tk_fit_ok s D Z : snd (tk_fit s D Z) = Ok tt ->
  tk_reg (fst (tk_fit s D Z)) = tk_reg s /\
  exists D' Z', tk_data (fst (tk_fit s D Z)) = Some (D', Z') /\ D = M D' /\ Z' = atleast_2d Z /\
  forall G, tk_reg s = Some G -> square (ncols D') G.
Proof.
  unfold tk_fit, base_fit. destruct D as [d|D]; cbn; [discriminate|].
  destruct (Nat.eqb _ _); cbn; [|discriminate]. destruct (tk_reg s) as [G|]; cbn.
  - unfold guard. destruct (shape_is (ncols D) (ncols D) G) eqn:ES; cbn; [|discriminate]. intros _. split; auto.
    exists D, (atleast_2d Z). do 3 (split; auto). intros G' [= <-]. now apply shape_square.
  - intros _. split; auto. exists D, (atleast_2d Z). do 3 (split; auto). discriminate.
Qed.

Lemma td_one_meant a G : td_one a = Ok G <-> meant a G.
Proof.
  destruct a as [v|m]; cbn.
  - destruct (negs v) eqn:EN.
    + split; [discriminate|]. intros (H & _). apply negs_no_negative in H. congruence.
    + apply negs_no_negative in EN. split; [intros [= <-]; now apply meant_mdiag|]. intros H. f_equal.
      now apply (meant_eq (V v)); [apply meant_mdiag|].
  - split; congruence.
Qed.
Lemma td_set_ok s gs : snd (td_set s gs) = Ok tt <->
  match gs with
  | None => True
  | Some l => exists Gs, Forall2 meant l Gs /\ forall D Z, td_data s = Some (D, Z) -> length Gs = nrows Z /\ Forall (square (ncols D)) Gs
  end.
Proof.
  assert (A : forall Gs, td_check (td_data s) Gs = Ok tt <-> forall D Z, td_data s = Some (D, Z) -> length Gs = nrows Z /\ Forall (square (ncols D)) Gs).
  { intros Gs. unfold td_check, guard. destruct (td_data s) as [[D Z]|].
    - destruct (Nat.eqb_spec (length Gs) (nrows Z)) as [E|E]; cbn.
      + destruct (forallb _ Gs) eqn:EF; cbn; split; auto.
        * intros _ D' Z' [= <- <-]. split; auto. apply Forall_forall. intros G HG. rewrite forallb_forall in EF. now apply shape_square, EF.
        * discriminate.
        * intros H. destruct (H D Z eq_refl) as [_ H']. rewrite <- not_true_iff_false in EF. exfalso. apply EF.
          apply forallb_forall. intros G HG. rewrite Forall_forall in H'. now apply shape_square, H'.
      + split; [discriminate|]. intros H. destruct (H D Z eq_refl). congruence.
    - split; auto. discriminate. }
  destruct gs as [l|]; cbn [td_set]; [|split; auto].
  assert (B : forall Gs, Forall2 meant l Gs <-> mapM td_one l = Ok Gs).
  { intros Gs. rewrite AffProofs.mapM_Forall2. split; intros H; induction H; constructor; auto; now apply td_one_meant. }
  destruct (mapM td_one l) as [Gs|e] eqn:EM; cbn [snd].
  - rewrite A. split.
    + intros H. exists Gs. split; auto. now apply B.
    + intros (Gs' & H1 & H2). apply B in H1. injection H1 as ->. auto.
  - split; [discriminate|]. intros (Gs' & H1 & _). apply B in H1. discriminate.
Qed.
Lemma td_set_val s gs : snd (td_set s gs) = Ok tt -> td_data (fst (td_set s gs)) = td_data s /\ td_pre (fst (td_set s gs)) = td_pre s /\
  td_method (fst (td_set s gs)) = td_method s /\
  match gs with None => td_reg (fst (td_set s gs)) = None | Some l => exists Gs, td_reg (fst (td_set s gs)) = Some Gs /\ Forall2 meant l Gs end.
Proof.
  destruct gs as [l|]; cbn [td_set].
  - destruct (mapM td_one l) as [Gs|e] eqn:EM; cbn; [|discriminate]. intros _. do 3 (split; auto). exists Gs. split; auto.
    apply AffProofs.mapM_Forall2 in EM. induction EM; constructor; auto. now apply td_one_meant.
  - cbn. auto.
Qed.
Lemma td_fit_ok s D Z : snd (td_fit s D Z) = Ok tt ->
  td_reg (fst (td_fit s D Z)) = td_reg s /\
  exists D' Z', td_data (fst (td_fit s D Z)) = Some (D', Z') /\ D = M D' /\ Z' = atleast_2d Z /\
  forall Gs, td_reg s = Some Gs -> length Gs = nrows Z' /\ Forall (square (ncols D')) Gs.
Proof.
  unfold td_fit, base_fit. destruct D as [d|D]; cbn; [discriminate|].
  destruct (Nat.eqb _ _); cbn; [|discriminate]. destruct (td_reg s) as [Gs|]; cbn.
  - unfold guard. destruct (Nat.eqb_spec (length Gs) (nrows (atleast_2d Z))) as [E|E]; cbn; [|discriminate].
    destruct (forallb _ Gs) eqn:EF; cbn; [|discriminate]. intros _. split; auto.
    exists D, (atleast_2d Z). do 3 (split; auto). intros G' [= <-]. split; auto. apply Forall_forall. intros G HG. rewrite forallb_forall in EF. now apply shape_square, EF.
  - intros _. split; auto. exists D, (atleast_2d Z). do 3 (split; auto). discriminate.
Qed.

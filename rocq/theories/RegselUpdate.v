(* RegselUpdate.v -- changing the regularizer and refitting forgets what earlier changes did. *)
From Coq Require Import ZArith Reals Lia.
From Verif Require Export RegselCore.
#[local] Open Scope nat_scope.

(* the solver without its regularizer *)
Definition bare (s : lsq) : lsq :=
  match s with
  | LL2 p => LL2 {| l2_reg := None; l2_pre := l2_pre p |}
  | LL2D p => LL2D {| ld_reg := None; ld_pre := ld_pre p |}
  | LTik p => LTik (tk_store p None)
  | LTikD p => LTikD (td_store p None)
  | s => s
  end.
Lemma setreg_bare s g : reg_fits s g = true -> bare (fst (lsq_setreg s g)) = bare s.
Proof. destruct s as [p|p|p|p|p|p|p], g as [g|g|g|g]; cbn [reg_fits]; try discriminate; intros _; cbn [lsq_setreg].
  - destruct g; cbn; auto. destruct (Rlt_dec x 0); auto.
  - destruct g; cbn; auto. destruct (negs v); auto.
  - destruct g as [[v|G]|]; cbn; auto. destruct (negs v); auto.
  - destruct g as [l|]; cbn; auto. destruct (mapM td_one l); auto. Qed.
Lemma setreg_det s s' g : bare s = bare s' -> reg_fits s g = true ->
  reg_fits s' g = true /\ snd (lsq_setreg s g) = snd (lsq_setreg s' g) /\ (snd (lsq_setreg s g) = Ok tt -> fst (lsq_setreg s g) = fst (lsq_setreg s' g)).
Proof. destruct s as [p|p|p|p|p|p|p], s' as [q|q|q|q|q|q|q]; cbn [bare]; try discriminate; intros E; destruct g as [g|g|g|g]; cbn [reg_fits]; try discriminate; intros _; (split; [reflexivity|]).
  - destruct p as [a b], q as [a' b']. cbn in E. injection E as <-. destruct g; cbn; auto; [|split; auto; discriminate|split; auto; discriminate]. destruct (Rlt_dec x 0); cbn; split; auto. discriminate.
  - destruct p as [a b], q as [a' b']. cbn in E. injection E as <-. destruct g; cbn; auto; try (split; auto; discriminate). destruct (negs v); cbn; split; auto. discriminate.
  - destruct p, q. cbn in E. unfold tk_store in E. cbn in E. injection E as <- <- <- <-. destruct g as [[v|G]|]; cbn; auto. destruct (negs v); cbn; split; auto. discriminate.
  - destruct p, q. cbn in E. unfold td_store in E. cbn in E. injection E as <- <- <-. destruct g as [l|]; cbn; auto. destruct (mapM td_one l); cbn; split; auto. discriminate. Qed.

(* lists of operators that differ only in the entries of those at ix *)
Definition like (ix : list nat) (l l' : list mop) : Prop :=
  map mo_cls l = map mo_cls l' /\ forall i, ~ In i ix -> nth_error l i = nth_error l' i.
Lemma like_refl ix l : like ix l l.
Proof. split; auto. Qed.
Lemma like_mono ix ix' l l' : incl ix ix' -> like ix l l' -> like ix' l l'.
Proof. intros H (A & B). split; [exact A|]. intros i Hi. apply B. intros Hx. apply Hi, H, Hx. Qed.
Lemma list_ext_nth {A} (l : list A) : forall l', (forall i, nth_error l i = nth_error l' i) -> l = l'.
Proof. induction l as [|x l IH]; intros [|y l'] H; auto; try (specialize (H 0); discriminate). f_equal; [specialize (H 0); cbn in H; congruence|]. apply IH. intros i. apply (H (S i)). Qed.
Lemma like_nil l l' : like [] l l' -> l = l'.
Proof. intros (_ & H). apply list_ext_nth. intros i. apply H. auto. Qed.
Lemma upd_nth {A} i (x : A) l j : nth_error (upd i x l) j = if j =? i then match nth_error l i with Some _ => Some x | None => None end else nth_error l j.
Proof. revert i j. induction l as [|y l IH]; intros [|i] [|j]; cbn; auto; try (destruct (j =? i); auto; fail). Qed.
Lemma like_cls ix l l' i o : like ix l l' -> nth_error l i = Some o -> exists o', nth_error l' i = Some o' /\ mo_cls o' = mo_cls o.
Proof. intros (A & _) E. assert (E1 : nth_error (map mo_cls l') i = Some (mo_cls o)) by (rewrite <- A; apply map_nth_error; auto).
  rewrite nth_error_map in E1. destruct (nth_error l' i); [|discriminate]. injection E1 as E1. eauto. Qed.
Lemma like_none ix l l' i : like ix l l' -> nth_error l i = None -> nth_error l' i = None.
Proof. intros (A & _) E. apply nth_error_None. apply nth_error_None in E. apply (f_equal (@length _)) in A. rewrite !map_length in A. lia. Qed.
Lemma like_upd ix l l' i o o' c e : like (i :: ix) l l' -> nth_error l i = Some o -> nth_error l' i = Some o' -> mo_cls o = c ->
  mo_cls o' = c -> like ix (upd i {| mo_cls := c; mo_ent := Some e |} l) (upd i {| mo_cls := c; mo_ent := Some e |} l').
Proof. intros (A & B) E E' Hc Hc'. split.
  - apply list_ext_nth. intros j. rewrite !nth_error_map, !upd_nth, E, E'. destruct (j =? i); auto. rewrite <- !nth_error_map. congruence.
  - intros j Hj. rewrite !upd_nth, E, E'. destruct (Nat.eqb_spec j i) as [->|Hne]; auto. apply B. intros [<-|Hx]; auto. Qed.
Lemma like_upd_self ix l i o c e : In i ix -> nth_error l i = Some o -> mo_cls o = c -> like ix (upd i {| mo_cls := c; mo_ent := Some e |} l) l.
Proof. intros Hi E Hc. split.
  - apply list_ext_nth. intros j. rewrite !nth_error_map, !upd_nth, E. destruct (Nat.eqb_spec j i) as [->|]; auto. rewrite E. cbn. congruence.
  - intros j Hj. rewrite !upd_nth, E. destruct (Nat.eqb_spec j i) as [->|]; auto. contradiction. Qed.
Lemma like_trans ix a b c : like ix a b -> like ix b c -> like ix a c.
Proof. intros (A & B) (C & D). split; [congruence|]. intros i Hi. rewrite B, D; auto. Qed.
Lemma like_sym ix a b : like ix a b -> like ix b a.
Proof. intros (A & B). split; auto. intros i Hi. symmetry. auto. Qed.

Lemma extract_like r m O ix0 ix : incl ix ix0 -> forall idx l, like ix0 (fst (extract r m O idx ix l)) l.
Proof. induction ix as [|i ix IH]; intros Hin idx l; cbn [extract]; [apply like_refl|]. destruct (nth_error l i) as [o|] eqn:Eo; [|apply like_refl].
  destruct (do w <- width (mo_cls o) r m; do e <- set_2d (mo_cls o) (mcols idx (idx + w) O); Ok (w, e)) as [[w e]|]; [|apply like_refl].
  eapply like_trans; [apply IH; intros j Hj; apply Hin; right; auto|]. eapply like_upd_self; eauto. apply Hin. left. auto. Qed.
Lemma extract_det r m O ix : forall idx l l', like ix l l' ->
  snd (extract r m O idx ix l) = snd (extract r m O idx ix l') /\ (snd (extract r m O idx ix l) = Ok tt -> fst (extract r m O idx ix l) = fst (extract r m O idx ix l')).
Proof. induction ix as [|i ix IH]; intros idx l l' H; cbn [extract]. { split; auto. intros _. cbn. apply like_nil; auto. }
  destruct (nth_error l i) as [o|] eqn:Eo.
  - destruct (like_cls _ _ _ _ _ H Eo) as (o' & Eo' & Hc). rewrite Eo', Hc. destruct (do w <- width (mo_cls o) r m; do e <- set_2d (mo_cls o) (mcols idx (idx + w) O); Ok (w, e)) as [[w e]|]; [|split; auto; discriminate].
    apply IH. eapply like_upd; eauto.
  - rewrite (like_none _ _ _ _ H Eo). split; auto. discriminate. Qed.

(* d differs from d0 only in the regularizer and in the entries of learned operators *)
Definition variant (d0 d : model) : Prop :=
  m_kind d = m_kind d0 /\ m_frozen d = m_frozen d0 /\ m_infer d = m_infer d0 /\ m_known d = m_known d0 /\ m_hasin d = m_hasin d0 /\ m_r d = m_r d0 /\ m_m d = m_m d0 /\
  m_intrusive d = m_intrusive d0 /\ option_map bare (m_solver d) = option_map bare (m_solver d0) /\ like (m_infer d0) (m_ops d) (m_ops d0) /\ (m_intrusive d0 = true -> m_ops d = m_ops d0).
Lemma variant_refl d : variant d d.
Proof. unfold variant. do 9 (split; [reflexivity|]). split; [apply like_refl|auto]. Qed.
Lemma model_ext d d' : m_kind d = m_kind d' -> m_frozen d = m_frozen d' -> m_infer d = m_infer d' -> m_known d = m_known d' -> m_hasin d = m_hasin d' -> m_r d = m_r d' -> m_m d = m_m d' ->
  m_intrusive d = m_intrusive d' -> m_solver d = m_solver d' -> m_ops d = m_ops d' -> d = d'.
Proof. destruct d, d'; cbn. intros; congruence. Qed.

Lemma update_variant LX factory d0 d p : variant d0 d ->
  variant d0 (fst (model_update LX factory d p)) /\ snd (model_update LX factory d p) = snd (model_update LX factory d0 p) /\
  (snd (model_update LX factory d0 p) = Ok tt -> fst (model_update LX factory d p) = fst (model_update LX factory d0 p)).
Proof. intros H. assert (HV := H). destruct H as (A1 & A2 & A3 & A4 & A5 & A6 & A7 & A8 & A9 & A10 & A11). unfold model_update. destruct (factory p) as [g|e]; [|cbn; split; auto; split; auto; discriminate].
  destruct (m_solver d) as [s|] eqn:Es, (m_solver d0) as [s0|] eqn:Es0; cbn [option_map] in A9; try discriminate; [|cbn; split; auto; split; auto; discriminate]. injection A9 as A9.
  destruct (reg_fits s g) eqn:Ef; cbn [negb].
  2:{ destruct (reg_fits s0 g) eqn:Ef0. { destruct (setreg_det s0 s g (eq_sym A9) Ef0) as (? & _). congruence. } cbn. split; auto. split; auto. discriminate. }
  destruct (setreg_det s s0 g A9 Ef) as (Ef0 & B1 & B2). rewrite Ef0. cbn [negb]. unfold set_regularizer. rewrite Es, Es0.
  assert (C0 := setreg_bare s g Ef). destruct (lsq_setreg s g) as [s1 x1], (lsq_setreg s0 g) as [s2 x2]. cbn [fst snd] in *. subst x2.
  assert (HV1 : variant d0 (with_solver (Some s1) d)) by (unfold variant; cbn; rewrite Es0; cbn; do 8 (split; [assumption|]); split; [congruence|]; auto).
  destruct x1 as [[]|e]; cbn [seqm fst snd]; [|split; [exact HV1|split; auto; discriminate]]. specialize (B2 eq_refl). subst s2.
  unfold refit. cbn [with_solver m_intrusive m_solver m_r m_m m_infer m_ops]. rewrite A8. destruct (m_intrusive d0) eqn:Ei.
  { cbn [fst snd]. split; auto. split; auto. intros _. apply model_ext; cbn; auto. congruence. }
  destruct (lsq_solve LX s1) as [O|e]; [|cbn [fst snd]; split; auto; split; auto; discriminate]. rewrite A6, A7, A3.
  destruct (extract_det (m_r d0) (m_m d0) O (m_infer d0) 0 _ _ A10) as (D1 & D2). assert (D3 := extract_like (m_r d0) (m_m d0) O (m_infer d0) (m_infer d0) (incl_refl _) 0 (m_ops d)).
  destruct (extract (m_r d0) (m_m d0) O 0 (m_infer d0) (m_ops d)) as [l1 y1], (extract (m_r d0) (m_m d0) O 0 (m_infer d0) (m_ops d0)) as [l2 y2]. cbn [fst snd] in *. subst y2.
  split. { destruct HV1 as (V1 & V2 & V3 & V4 & V5 & V6 & V7 & V8 & V9 & V10 & V11). unfold variant. cbn in *. do 9 (split; [assumption|]). split; [eapply like_trans; eauto|]. congruence. }
  split; auto. intros Hy. apply model_ext; cbn; auto; try congruence. Qed.
Lemma retrained_iff LX factory d p d' : model_update LX factory d p = (d', Ok tt) <-> retrained LX factory d p d'.
Proof. unfold model_update, retrained. destruct (factory p) as [g|e]; [|split; [discriminate|intros (? & ? & ? & ? & _); discriminate]].
  destruct (m_solver d) as [s|] eqn:Es; [|split; [discriminate|intros (? & ? & ? & _ & ? & _); discriminate]].
  destruct (reg_fits s g) eqn:Ef; cbn [negb]; [|split; [discriminate|intros (? & ? & ? & [= <-] & [= <-] & ? & _); congruence]].
  destruct (set_regularizer g d) as [d2 [[]|e]] eqn:E; cbn [seqm].
  - split; intros H; [exists g, s, d2; auto|]. destruct H as (g' & s' & d3 & [= <-] & _ & _ & E3 & E4). congruence.
  - split; [discriminate|]. intros (g' & s' & d3 & [= <-] & _ & _ & E3 & E4). congruence. Qed.

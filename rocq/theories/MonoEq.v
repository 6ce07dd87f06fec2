(* MonoEq.v -- equality and copies of models. *)
From Coq Require Import ZArith String.
From Verif Require Import EntriesProofs.
From Verif Require Export MonoPredict.
#[local] Open Scope nat_scope.

Lemma cls_eqb_eq a b : cls_eqb a b = true <-> a = b.
Proof. destruct a as [| |d| |], b as [| |d'| |]; cbn; try (split; congruence). destruct d, d'; cbn; split; congruence. Qed.
Lemma mop_eqb_eq a b : mop_eqb a b = true <-> a = b.
Proof. destruct a as [c e], b as [c' e']. unfold mop_eqb. cbn. rewrite Bool.andb_true_iff, cls_eqb_eq. destruct e as [e|], e' as [e'|]; [rewrite op_eqb_eq|..]; split; intros H; try (destruct H; congruence); try (injection H as; subst; auto); discriminate. Qed.

(* the elements of l (numbered from i) that are not marked *)
Fixpoint um (l : list mop) (marked : list nat) (i : nat) : list mop :=
  match l with [] => [] | b :: t => if existsb (Nat.eqb i) marked then um t marked (S i) else b :: um t marked (S i) end.
Lemma um_nil l i : um l [] i = l. Proof. revert i. induction l as [|b l IH]; intros i; cbn; auto. rewrite IH. auto. Qed.
Lemma um_lt l marked i j : j < i -> um l (j :: marked) i = um l marked i.
Proof. revert i. induction l as [|b l IH]; intros i Hj; auto. cbn [um existsb]. destruct (Nat.eqb_spec i j); [lia|]. cbn [orb]. rewrite IH by lia. auto. Qed.
Lemma find_some o l marked i j : find_op o l marked i = Some j -> i <= j /\ Permutation (um l marked i) (o :: um l (j :: marked) i).
Proof. revert i. induction l as [|b l IH]; intros i E; [discriminate|]. cbn [find_op] in E. destruct (mop_eqb o b) eqn:Eb; cbn [andb] in E.
  - apply mop_eqb_eq in Eb. subst b. destruct (existsb (Nat.eqb i) marked) eqn:Em; cbn [negb] in E.
    + destruct (IH _ E) as [Hj HP]. split; [lia|]. cbn [um existsb]. destruct (Nat.eqb_spec i j); [lia|]. cbn [orb]. rewrite Em. auto.
    + injection E as <-. split; auto. cbn [um existsb]. rewrite Em, Nat.eqb_refl. cbn [orb]. rewrite um_lt by lia. auto.
  - destruct (IH _ E) as [Hj HP]. split; [lia|]. cbn [um existsb]. destruct (Nat.eqb_spec i j); [lia|]. cbn [orb]. destruct (existsb (Nat.eqb i) marked); auto.
    rewrite perm_swap. apply perm_skip. auto. Qed.
Lemma find_none o l marked i : find_op o l marked i = None -> ~ In o (um l marked i).
Proof. revert i. induction l as [|b l IH]; intros i E; cbn; auto. cbn [find_op] in E. destruct (mop_eqb o b) eqn:Eb; cbn [andb] in E.
  - destruct (existsb (Nat.eqb i) marked); [apply IH; auto|discriminate].
  - assert (H := IH _ E). destruct (existsb (Nat.eqb i) marked); auto. intros [->|Hin]; auto. assert (mop_eqb o o = true) by (apply mop_eqb_eq; auto). congruence. Qed.
Lemma match_ops_iff l l' marked : match_ops l l' marked = true <-> exists rest, Permutation (l ++ rest) (um l' marked 0).
Proof. revert marked. induction l as [|o l IH]; intros marked; cbn [match_ops]. { split; auto. intros _. exists (um l' marked 0). auto. }
  destruct (find_op o l' marked 0) as [j|] eqn:E.
  - destruct (find_some _ _ _ _ _ E) as [_ HP]. rewrite IH. split; intros [rest HR]; exists rest; cbn [app] in *.
    + rewrite HP. apply perm_skip. auto.
    + rewrite HP in HR. apply Permutation_cons_inv in HR. auto.
  - split; [discriminate|]. intros [rest HR]. exfalso. apply (find_none _ _ _ _ E). apply (Permutation_in _ HR). left; auto. Qed.
Lemma match_ops_perm l l' : length l = length l' -> (match_ops l l' [] = true <-> Permutation l l').
Proof. intros HL. rewrite match_ops_iff, um_nil. split.
  - intros [rest HP]. assert (E := Permutation_length HP). rewrite app_length in E. destruct rest; [|cbn in E; lia]. rewrite app_nil_r in HP. auto.
  - intros HP. exists []. rewrite app_nil_r. auto. Qed.

Lemma odim_eqb_eq a b : odim_eqb a b = true <-> a = b.
Proof. destruct a as [x|], b as [y|]; cbn; try (split; congruence). rewrite Nat.eqb_eq. split; congruence. Qed.
Lemma dunder_iff a b : dunder_eq a b = true <-> isinst b a = true /\ m_r a = m_r b /\ m_m a = m_m b /\ Permutation (m_ops a) (m_ops b).
Proof. unfold dunder_eq. rewrite !Bool.andb_true_iff, !odim_eqb_eq, Nat.eqb_eq. split.
  - intros ((((H1 & H2) & H3) & H4) & H5). repeat (split; auto). apply match_ops_perm; auto.
  - intros (H1 & H2 & H3 & H4). assert (HL := Permutation_length H4). repeat (split; auto). apply match_ops_perm; auto. Qed.
Lemma model_eq_iff a b : model_eqb a b = true <->
  m_kind a = m_kind b /\ m_frozen a = m_frozen b /\ m_r a = m_r b /\ m_m a = m_m b /\ Permutation (m_ops a) (m_ops b).
Proof. unfold model_eqb. assert (HI : isinst b a = true /\ isinst a b = true <-> m_kind a = m_kind b /\ m_frozen a = m_frozen b).
  { unfold isinst. destruct (m_kind a), (m_kind b), (m_frozen a), (m_frozen b); cbn; intuition congruence. }
  destruct (isinst b a) eqn:E1, (isinst a b) eqn:E2; cbn [andb negb]; rewrite dunder_iff, ?E1, ?E2.
  - tauto.
  - split; [intros (H & _); discriminate|]. intros (H1 & H2 & _). destruct HI as [_ HI]. destruct (HI (conj H1 H2)). discriminate.
  - split; [intros (H & _); discriminate|]. intros (H1 & H2 & _). destruct HI as [_ HI]. destruct (HI (conj H1 H2)). discriminate.
  - split; [intros (H & _); discriminate|]. intros (H1 & H2 & _). destruct HI as [_ HI]. destruct (HI (conj H1 H2)). discriminate. Qed.
Lemma model_eq_refl a : model_eqb a a = true. Proof. apply model_eq_iff. repeat split; auto. Qed.
Lemma model_eq_sym a b : model_eqb a b = model_eqb b a.
Proof. apply Bool.eq_true_iff_eq. rewrite !model_eq_iff. intuition auto using Permutation_sym. Qed.
Lemma model_eq_trans a b c : model_eqb a b = true -> model_eqb b c = true -> model_eqb a c = true.
Proof. rewrite !model_eq_iff. intros (H1 & H2 & H3 & H4 & H5) (K1 & K2 & K3 & K4 & K5). repeat (split; [congruence|]). eapply perm_trans; eauto. Qed.
Lemma model_eq_reorder d l : Permutation l (m_ops d) -> model_eqb (with_ops l d) d = true.
Proof. intros HP. apply model_eq_iff. repeat split; auto. Qed.

(* ---- copies ---- *)
Lemma mop_copy_id o : valid_op o -> mop_copy o = Ok o.
Proof. intros HV. unfold mop_copy. destruct o as [c [e|]]; cbn; auto. destruct (HV e eq_refl) as (Hc & r & m & Hr & Hm & Hw).
  destruct (rebuild_same_ok r m e (entries2 e) Hr (entries2_shape _ _ _ Hw)) as (e' & E & Hw' & HC & HE). rewrite E. cbn. do 3 f_equal.
  symmetry. apply same_class_eq; auto. Qed.
Lemma mops_copy_id l : (forall o, In o l -> valid_op o) -> mapM mop_copy l = Ok l.
Proof. induction l as [|o l IH]; intros H; auto. cbn. rewrite (mop_copy_id o) by (apply H; left; auto). cbn. rewrite IH by (intros; apply H; right; auto). auto. Qed.
Lemma set_operators_again args d d' : set_operators args d = (d', Ok tt) -> forall d0, m_kind d0 = m_kind d -> m_frozen d0 = m_frozen d -> m_solver d0 = m_solver d ->
  set_operators (map AOp (m_ops d')) d0 = (d', Ok tt).
Proof. unfold set_operators. destruct args as [|a args]; [discriminate|]. destruct (resolve false (a :: args)) as [hi x] eqn:ER. destruct x as [ops|]; [|discriminate].
  destruct (duplicates _) eqn:ED; [discriminate|]. destruct (state_dim ops) as [r|] eqn:Er; [|discriminate]. destruct (input_dim ops) as [m|] eqn:Em; [|discriminate].
  intros E d0 E1 E2 E3. injection E as <-. cbn [m_ops]. assert (HR := resolve_ok _ _ _ _ ER). assert (HH := resolve_hi _ _ _ _ ER). cbn [orb] in HH.
  destruct ops as [|o ops]; [inversion HR|]. cbn [map]. change (AOp o :: map AOp ops) with (map AOp (o :: ops)). rewrite resolve_AOp, ED, Er, Em, <- HH, E1, E2, E3. reflexivity. Qed.
(* the copy of a newly made model is the same model *)
Lemma copy_fresh k fr args a d : Forall valid_arg args -> mk_model k fr args a = Ok d -> copy_model d = Ok d.
Proof. intros HV E. unfold mk_model in E. destruct (set_operators args (blank k fr)) as [d1 x] eqn:E1. destruct x as [[]|]; [|discriminate]. cbn [seqm] in E.
  destruct (set_solver a d1) as [d2 x] eqn:E2. destruct x as [[]|]; [|discriminate]. injection E as ->.
  destruct (set_operators_inv args _ _ HV E1) as (HI & Hs & Hf & Hk & _). cbn in Hs, Hf, Hk.
  assert (HA : m_ops d = m_ops d1 /\ m_kind d = k /\ m_frozen d = fr /\ set_solver (solver_of d) d1 = (d, Ok tt)).
  { unfold set_solver in *. rewrite Hf in *. destruct fr; [injection E2 as <-; auto|]. destruct (m_intrusive d1); [injection E2 as <-; cbn; auto|].
    destruct a as [|x|s|]; [injection E2 as <-; cbn; auto| |injection E2 as <-; cbn; auto|discriminate].
    destruct (Req_EM_T x 0); [injection E2 as <-; cbn; auto|]. destruct (Rlt_dec 0 x); [injection E2 as <-; cbn; auto|discriminate]. }
  destruct HA as (EO & EK & EF & ES). unfold copy_model. rewrite EO, EK, EF. rewrite mops_copy_id by (apply (si_valid d1 HI)). cbn [bind].
  unfold mk_model. rewrite (set_operators_again _ _ _ E1) by auto. cbn [seqm]. rewrite ES. auto. Qed.
(* the copy of a trained model: an equal model, which however has nothing left to learn *)
Lemma copy_trained X d : minv X d -> check_trained d = Ok tt -> exists d', copy_model d = Ok d' /\ model_eqb d' d = true /\ m_ops d' = m_ops d /\
  check_trained d' = Ok tt /\ (forall q u, rhs d' q u = rhs d q u) /\
  m_intrusive d' = true /\ m_infer d' = [] /\ m_solver d' = None.
Proof. intros HM HT. assert (HI := mi_s X d HM). destruct (trained_dims X d HM HT) as (r & m & Hr & Hm & Er & Em & Em0 & HF).
  unfold copy_model. rewrite mops_copy_id by (apply (si_valid d HI)). cbn [bind]. rewrite (mk_model_sized _ _ r m) by (auto; apply (si_ne d HI)).
  eexists. split; [reflexivity|]. split.
  { apply model_eq_iff. cbn [m_kind m_frozen m_r m_m m_ops]. repeat (split; auto). rewrite <- (si_hasin d HI). destruct (m_hasin d); symmetry; auto. }
  cbn [m_ops m_intrusive m_infer m_solver]. split; auto. split. { apply (trained_sized _ r m); cbn; auto. discriminate. } auto. Qed.
Lemma copy_does_not_learn X d : minv X d -> check_trained d = Ok tt -> m_frozen d = false -> exists d', copy_model d = Ok d' /\
  (forall s l u, fit X d' s l u = (d', Ok tt)) /\ refit X d' = (d', Ok tt) /\ operator_matrix d' = Err ValueError.
Proof. intros HM HT Hf. assert (HI := mi_s X d HM). destruct (trained_dims X d HM HT) as (r & m & Hr & Hm & Er & Em & Em0 & HF).
  unfold copy_model. rewrite mops_copy_id by (apply (si_valid d HI)). cbn [bind]. rewrite (mk_model_sized _ _ r m) by (auto; apply (si_ne d HI)).
  eexists. split; [reflexivity|]. unfold fit, refit. cbn [m_frozen m_intrusive]. rewrite Hf. split; auto. split; auto. unfold operator_matrix.
  rewrite (trained_sized _ r m); cbn; auto. discriminate. Qed.

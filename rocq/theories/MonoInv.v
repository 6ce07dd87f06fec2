(* MonoInv.v -- invariants of model objects, and what fit() and refit() leave behind. *)
From Coq Require Import ZArith String.
From Verif Require Export MonoVals MonoSolver.
#[local] Open Scope nat_scope.

Record sinv (d : model) : Prop := {
  si_ne : m_ops d <> [];
  si_valid : forall o, In o (m_ops d) -> valid_op o;
  si_hasin : m_hasin d = existsb takes_input (m_ops d);
  si_perm : Permutation (m_infer d ++ m_known d) (seq 0 (length (m_ops d)));
  si_known : forall i, In i (m_known d) -> exists o e, nth_error (m_ops d) i = Some o /\ mo_ent o = Some e;
  si_dup : forall i j o o', In i (m_infer d) -> In j (m_infer d) -> nth_error (m_ops d) i = Some o -> nth_error (m_ops d) j = Some o' ->
           mo_cls o = mo_cls o' -> i = j;
  si_intr : m_intrusive d = (length (m_infer d) =? 0);
  si_r : forall e, In e (entries_of (m_ops d)) -> m_r d = Some (op_rows e);
  si_m : forall o e, In o (m_ops d) -> takes_input o = true -> mo_ent o = Some e -> m_m d = Some (op_inputs e);
  si_noin : m_hasin d = false -> m_m d = Some 0 }.

(* ---- positions ---------------------------------------------------------------------------------------------------- *)
Lemma sinv_in d i : sinv d -> (In i (m_infer d) \/ In i (m_known d) <-> i < length (m_ops d)).
Proof. intros H. rewrite <- in_app_iff. split.
  - intros Hi. apply (Permutation_in _ (si_perm d H)) in Hi. apply in_seq in Hi. lia.
  - intros Hi. apply (Permutation_in _ (Permutation_sym (si_perm d H))). apply in_seq. lia. Qed.
Lemma sinv_nodup d : sinv d -> NoDup (m_infer d ++ m_known d).
Proof. intros H. apply (Permutation_NoDup (Permutation_sym (si_perm d H))). apply seq_NoDup. Qed.
Lemma NoDup_app_l {A} (l l' : list A) : NoDup (l ++ l') -> NoDup l.
Proof. induction l as [|a l IH]; cbn; intros H; [constructor|]. inversion H; subst. constructor; auto. intros Hx. apply H2. apply in_app_iff; auto. Qed.
Lemma NoDup_app_disj {A} (l l' : list A) x : NoDup (l ++ l') -> In x l -> In x l' -> False.
Proof. induction l as [|a l IH]; cbn; intros H H1 H2; [auto|]. inversion H; subst. destruct H1 as [->|H1]; auto. apply H4. apply in_app_iff; auto. Qed.
Lemma sinv_infer_nodup d : sinv d -> NoDup (m_infer d).
Proof. intros H. eapply NoDup_app_l. apply sinv_nodup; auto. Qed.
Lemma sinv_disj d i : sinv d -> In i (m_infer d) -> In i (m_known d) -> False.
Proof. intros H. apply NoDup_app_disj. apply sinv_nodup; auto. Qed.
Lemma sinv_lt d i : sinv d -> In i (m_infer d) -> i < length (m_ops d).
Proof. intros H Hi. apply (sinv_in d i H). auto. Qed.
Lemma sinv_takes d o : sinv d -> In o (m_ops d) -> takes_input o = true -> m_hasin d = true.
Proof. intros H Ho Ht. rewrite (si_hasin d H). apply existsb_exists. exists o; auto. Qed.

Lemma one_of_all l a : (forall x, In x l -> x = a) -> one_of l = Ok (match l with [] => None | _ => Some a end).
Proof. destruct l as [|b l]; cbn; auto. intros H. assert (b = a) by (apply H; auto). subst b.
  assert (E : forallb (Nat.eqb a) l = true). { apply forallb_forall. intros x Hx. apply Nat.eqb_eq. symmetry. apply H; auto. }
  rewrite E. reflexivity. Qed.

(* ---- set_operators ---------------------------------------------------------------------------------------------------- *)
Lemma resolve_hi hi args hi' x : resolve hi args = (hi', Ok x) -> hi' = hi || existsb takes_input x.
Proof. revert hi hi' x. induction args as [|a args IH]; cbn; intros hi hi' x E.
  - injection E as <- <-. cbn. rewrite Bool.orb_false_r. auto.
  - destruct (resolve1 a) as [o|]; [|discriminate]. destruct (resolve (hi || has_inputs (mo_cls o)) args) as [h l] eqn:E2.
    destruct l as [l|]; [|discriminate]. cbn in E. injection E as <- <-. rewrite (IH _ _ _ E2). cbn [existsb]. rewrite Bool.orb_assoc. reflexivity. Qed.
Lemma resolve_ok hi args hi' x : resolve hi args = (hi', Ok x) -> Forall2 (fun a o => resolve1 a = Ok o) args x.
Proof. revert hi hi' x. induction args as [|a args IH]; cbn; intros hi hi' x E.
  - injection E as <- <-. constructor.
  - destruct (resolve1 a) as [o|] eqn:E1; [|discriminate]. destruct (resolve (hi || has_inputs (mo_cls o)) args) as [h l] eqn:E2.
    destruct l as [l|]; [|discriminate]. cbn in E. injection E as <- <-. constructor; eauto. Qed.
Lemma resolve1_valid a o : valid_arg a -> resolve1 a = Ok o -> valid_op o.
Proof. destruct a as [o'|s|]; cbn; intros HV E.
  - injection E as <-. auto.
  - destruct (abbreviation s); [|discriminate]. injection E as <-. intros e He. discriminate.
  - discriminate. Qed.
Lemma NoDup_map_indices l : NoDup (map mo_cls (filter uncal l)) -> forall i j o o', nth_error l i = Some o -> nth_error l j = Some o' ->
  uncal o = true -> uncal o' = true -> mo_cls o = mo_cls o' -> i = j.
Proof. induction l as [|a l IH]; intros HN i j o o' Hi Hj Ho Ho' Hc; [destruct i; discriminate|].
  assert (HN2 : NoDup (map mo_cls (filter uncal l))) by (cbn in HN; destruct (uncal a); auto; inversion HN; auto).
  assert (HX : forall b n, uncal a = true -> uncal b = true -> nth_error l n = Some b -> mo_cls a = mo_cls b -> False).
  { intros b n Ha Hb Hn Hab. cbn in HN. rewrite Ha in HN. cbn in HN. inversion HN; subst. apply H1. rewrite Hab. apply in_map.
    apply filter_In. split; auto. eapply nth_error_In; eauto. }
  destruct i as [|i], j as [|j]; cbn in Hi, Hj; auto.
  - injection Hi as ->. exfalso. eapply HX; eauto.
  - injection Hj as ->. exfalso. eapply (HX o i); eauto.
  - f_equal. eapply IH; eauto. Qed.
Lemma set_operators_inv args d d' : Forall valid_arg args -> set_operators args d = (d', Ok tt) ->
  sinv d' /\ m_solver d' = m_solver d /\ m_frozen d' = m_frozen d /\ m_kind d' = m_kind d /\
  Forall2 (fun a o => resolve1 a = Ok o) args (m_ops d') /\ m_infer d' = indices uncal (m_ops d') /\
  m_known d' = indices (fun o => negb (uncal o)) (m_ops d') /\ state_dim (m_ops d') = Ok (m_r d') /\ input_dim (m_ops d') = Ok (m_m d').
Proof. intros HV E. unfold set_operators in E. destruct args as [|a0 args0]; [discriminate|]. set (args := a0 :: args0) in *.
  destruct (resolve false args) as [hi l] eqn:ER. destruct l as [ops|]; [|discriminate].
  destruct (duplicates (map mo_cls (filter uncal ops))) eqn:ED; [discriminate|].
  destruct (state_dim ops) as [r|] eqn:Er; [|discriminate]. destruct (input_dim ops) as [m|] eqn:Em; [|discriminate].
  injection E as <-. assert (HR := resolve_ok _ _ _ _ ER). assert (HH := resolve_hi _ _ _ _ ER). cbn [orb] in HH.
  apply duplicates_nodup in ED. cbn [m_solver m_frozen m_kind m_ops m_infer m_known m_r m_m].
  split; [|repeat split; auto]. constructor; cbn [m_solver m_frozen m_kind m_ops m_infer m_known m_r m_m m_hasin m_intrusive]; auto.
  - inversion HR; congruence.
  - intros o Ho. clear - HV HR Ho. revert HV. induction HR as [|a o' l l' H HR IH]; intros HV; [destruct Ho|].
    apply Forall_cons_iff in HV. destruct HV as [H1 H2]. destruct Ho as [<-|Ho]; [eapply resolve1_valid; eauto|auto].
  - apply indices_perm.
  - intros i Hi. apply in_indices in Hi. destruct Hi as (o & Eo & Hu). unfold uncal in Hu. destruct (mo_ent o) as [e|] eqn:Ee; [|discriminate].
    exists o, e; auto.
  - intros i j o o' Hi Hj Eo Eo' Hc. apply in_indices in Hi, Hj. destruct Hi as (o1 & E1 & U1). destruct Hj as (o2 & E2 & U2).
    rewrite Eo in E1. rewrite Eo' in E2. injection E1 as <-. injection E2 as <-. eapply NoDup_map_indices; eauto.
  - intros e He. apply state_dim_ok in Er. destruct r as [r|]; [|rewrite Er in He; destruct He]. destruct Er as [_ H]. f_equal. symmetry. auto.
  - intros o e Ho Ht Ee. apply input_dim_ok in Em. destruct m as [m|].
    + destruct Em as (_ & H & _). f_equal. symmetry. eauto.
    + destruct Em as [_ H]. rewrite H in Ee by auto. discriminate.
  - intros Hf. apply input_dim_ok in Em. rewrite HH in Hf. destruct m as [m|].
    + destruct Em as (H & _). rewrite H by auto. auto.
    + destruct Em as [H _]. congruence. Qed.

(* ---- dimension setters -------------------------------------------------------------------------------------------------- *)
Lemma set_r_inv r d d' x : sinv d -> set_state_dimension r d = (d', x) -> sinv d' /\ (x = Ok tt -> m_r d' = Some r /\ d' = with_r (Some r) d) /\
  (x <> Ok tt -> d' = d).
Proof. intros H E. unfold set_state_dimension in E. destruct (forallb _ _) eqn:EF; apply pair_equal_spec in E; destruct E as [<- <-].
  - split; [|split; auto; congruence]. destruct H. constructor; cbn; auto. intros e He. rewrite forallb_forall in EF.
    specialize (EF e He). apply Nat.eqb_eq in EF. congruence.
  - split; auto. split; auto; discriminate. Qed.
Lemma set_m_inv m d d' x : sinv d -> set_input_dimension m d = (d', x) -> sinv d' /\ (x = Ok tt -> m_m d' = Some m /\ d' = with_m (Some m) d) /\
  (x <> Ok tt -> d' = d).
Proof. intros H E. unfold set_input_dimension in E. destruct (negb (m_hasin d) && negb (m =? 0)) eqn:E0.
  { apply pair_equal_spec in E; destruct E as [<- <-]. split; auto. split; auto; discriminate. }
  destruct (forallb _ _) eqn:EF; apply pair_equal_spec in E; destruct E as [<- <-].
  - split; [|split; auto; congruence]. destruct H. constructor; cbn; auto.
    + intros o e Ho Ht Ee. rewrite forallb_forall in EF.
      assert (Hin : In e (entries_of (filter takes_input (m_ops d)))) by (apply in_entries_of; exists o; split; auto; apply filter_In; auto).
      specialize (EF e Hin). apply Nat.eqb_eq in EF. congruence.
    + intros Hf. rewrite Hf in E0. cbn in E0. destruct (Nat.eqb_spec m 0); [subst; auto|discriminate].
  - split; auto. split; auto; discriminate. Qed.

(* ---- clear -------------------------------------------------------------------------------------------------------------- *)
Definition cleared (d : model) : Prop := forall i o, In i (m_infer d) -> nth_error (m_ops d) i = Some o -> mo_ent o = None.
(* same model up to entries of the operators and dimensions *)
Definition frame (d d' : model) : Prop :=
  m_kind d' = m_kind d /\ m_frozen d' = m_frozen d /\ m_infer d' = m_infer d /\ m_known d' = m_known d /\ m_hasin d' = m_hasin d /\
  m_intrusive d' = m_intrusive d /\ m_solver d' = m_solver d /\ length (m_ops d') = length (m_ops d) /\
  (forall i, In i (m_known d) -> nth_error (m_ops d') i = nth_error (m_ops d) i) /\
  (forall i o, nth_error (m_ops d) i = Some o -> exists o', nth_error (m_ops d') i = Some o' /\ mo_cls o' = mo_cls o).
Lemma frame_refl d : frame d d.
Proof. unfold frame. repeat split; auto. intros i o H. exists o; auto. Qed.
Lemma frame_trans a b c : frame a b -> frame b c -> frame a c.
Proof. unfold frame. intros (A1 & A2 & A3 & A4 & A5 & A6 & A7 & A8 & A9 & A10) (B1 & B2 & B3 & B4 & B5 & B6 & B7 & B8 & B9 & B10).
  repeat split; try congruence.
  - intros i Hi. rewrite B9 by (rewrite A4; auto). auto.
  - intros i o H. destruct (A10 i o H) as (o1 & H1 & C1). destruct (B10 i o1 H1) as (o2 & H2 & C2). exists o2. split; congruence. Qed.
Lemma frame_dims d r m : frame d (with_m m (with_r r d)).
Proof. exact (frame_refl d). Qed.

Lemma existsb_cls (l l' : list mop) : map mo_cls l = map mo_cls l' -> existsb takes_input l = existsb takes_input l'.
Proof. revert l'. induction l as [|a l IH]; intros [|b l'] H; cbn in *; try discriminate; auto. injection H as H1 H2.
  unfold takes_input at 1 3. rewrite H1. f_equal. auto. Qed.
Lemma frame_cls d d' : frame d d' -> map mo_cls (m_ops d') = map mo_cls (m_ops d).
Proof. intros (_ & _ & _ & _ & _ & _ & _ & HL & _ & HC). revert HL HC. generalize (m_ops d) (m_ops d'). intros l. induction l as [|a l IH]; intros [|b l'] HL HC; cbn in *; try discriminate; auto.
  f_equal.
  - destruct (HC 0 a eq_refl) as (o & E & H). cbn in E. injection E as <-. auto.
  - apply IH; [lia|]. intros i o H. destruct (HC (S i) o H) as (o' & E & H'). exists o'; auto. Qed.

Lemma clear_frame d : sinv d -> frame d (with_ops (clear_ops (m_infer d) (m_ops d)) d).
Proof. intros H. unfold frame; cbn. repeat split; auto.
  - apply clear_ops_length.
  - intros i Hi. apply clear_ops_out. intros Hx. eapply sinv_disj; eauto.
  - intros i o Eo. destruct (in_dec Nat.eq_dec i (m_infer d)) as [Hi|Hi].
    + rewrite clear_ops_in by auto. rewrite Eo. cbn. eexists; split; eauto.
    + rewrite clear_ops_out by auto. rewrite Eo. eauto. Qed.
Lemma clear_entries d i o : nth_error (clear_ops (m_infer d) (m_ops d)) i = Some o -> exists o', nth_error (m_ops d) i = Some o' /\ mo_cls o = mo_cls o' /\
  (mo_ent o = None \/ o = o').
Proof. intros E. destruct (in_dec Nat.eq_dec i (m_infer d)) as [Hi|Hi].
  - rewrite clear_ops_in in E by auto. destruct (nth_error (m_ops d) i) as [o'|]; [|discriminate]. cbn in E. injection E as <-. exists o'. auto.
  - rewrite clear_ops_out in E by auto. exists o. auto. Qed.
Lemma clear_sub d o : In o (clear_ops (m_infer d) (m_ops d)) -> mo_ent o <> None -> In o (m_ops d).
Proof. intros Hi Hn. apply In_nth_error in Hi. destruct Hi as [i E]. destruct (clear_entries d i o E) as (o' & E' & _ & [Hx|Hx]); [congruence|subst o'].
  eapply nth_error_In; eauto. Qed.

Lemma clear_inv d d' x : sinv d -> m_frozen d = false -> clear d = (d', x) ->
  x = Ok tt /\ sinv d' /\ frame d d' /\ cleared d' /\
  (forall i o, In i (m_infer d) -> nth_error (m_ops d') i = Some o -> mo_ent o = None).
Proof. intros H Hf E. unfold clear in E. rewrite Hf in E. set (ops := clear_ops (m_infer d) (m_ops d)) in *. cbn [m_ops with_ops] in E.
  assert (Hr : forall e, In e (entries_of ops) -> m_r d = Some (op_rows e)).
  { intros e He. apply (si_r d H). apply in_entries_of in He. destruct He as (o & Ho & Ee). apply in_entries_of. exists o. split; auto.
    apply clear_sub; auto. congruence. }
  assert (Es : exists r, state_dim ops = Ok r /\ forall e, In e (entries_of ops) -> r = Some (op_rows e)).
  { unfold state_dim. destruct (m_r d) as [r|] eqn:Er.
    - rewrite (one_of_all _ r). 2:{ intros x0 Hx. apply in_map_iff in Hx. destruct Hx as (e & <- & He). specialize (Hr e He). congruence. }
      eexists; split; [reflexivity|]. intros e He. destruct (entries_of ops) as [|e0 l0]; [destruct He|]. cbn [map]. auto.
    - destruct (entries_of ops) as [|e l] eqn:EE; [cbn; eexists; split; eauto; intros e []|]. specialize (Hr e (or_introl eq_refl)). discriminate. }
  destruct Es as (r & Es & Hr'). rewrite Es in E. cbn [m_ops with_r with_ops] in E.
  assert (HT : existsb takes_input ops = existsb takes_input (m_ops d)).
  { apply existsb_cls. apply (frame_cls d (with_ops ops d)). apply clear_frame; auto. }
  assert (Ei : exists m, input_dim ops = Ok m /\ (forall o e, In o ops -> takes_input o = true -> mo_ent o = Some e -> m = Some (op_inputs e)) /\
    (m_hasin d = false -> m = Some 0)).
  { unfold input_dim. destruct (filter takes_input ops) as [|o0 l0] eqn:EF.
    - eexists; split; [reflexivity|]. split; auto. intros o e Ho Ht. assert (In o (filter takes_input ops)) by (apply filter_In; auto). rewrite EF in H0. destruct H0.
    - rewrite <- EF. assert (Hh : m_hasin d = true). { rewrite (si_hasin d H), <- HT. apply existsb_exists. exists o0. apply filter_In. rewrite EF; left; auto. }
      clear EF o0 l0. assert (Hm : forall e, In e (entries_of (filter takes_input ops)) -> m_m d = Some (op_inputs e)).
      { intros e He. apply in_entries_of in He. destruct He as (o & Ho & Ee). apply filter_In in Ho. destruct Ho as [Ho Ht].
        apply (si_m d H o); auto. apply clear_sub; auto. congruence. }
      destruct (entries_of (filter takes_input ops)) as [|e l] eqn:EE.
      + cbn. eexists; split; [reflexivity|]. split; [|congruence]. intros o e Ho Ht Ee. exfalso.
        assert (In e (entries_of (filter takes_input ops))) by (apply in_entries_of; exists o; split; auto; apply filter_In; auto). rewrite EE in H0. destruct H0.
      + rewrite (one_of_all _ (op_inputs e)).
        * cbn [map]. eexists; split; [reflexivity|]. split; [|congruence]. intros o e' Ho Ht Ee.
          assert (He' : In e' (e :: l)). { rewrite <- EE. apply in_entries_of; exists o; split; auto; apply filter_In; auto. }
          rewrite <- (Hm e (or_introl eq_refl)), <- (Hm e' He'). reflexivity.
        * intros x0 Hx. apply in_map_iff in Hx. destruct Hx as (e' & <- & He'). specialize (Hm e (or_introl eq_refl)) as M1. specialize (Hm e' He') as M2. congruence. }
  destruct Ei as (m & Ei & Hm1 & Hm2). rewrite Ei in E. injection E as <- <-. split; auto.
  assert (HFr : frame d (with_m m (with_r r (with_ops ops d)))) by (apply clear_frame; auto).
  assert (HC : forall i o, In i (m_infer d) -> nth_error ops i = Some o -> mo_ent o = None).
  { intros i o Hi Eo. unfold ops in Eo. rewrite clear_ops_in in Eo by auto. destruct (nth_error (m_ops d) i); [|discriminate]. cbn in Eo. injection Eo as <-. auto. }
  split; [|split; [auto|split; [exact HC|exact HC]]]. destruct H. constructor; cbn [with_m with_r with_ops m_ops m_infer m_known m_hasin m_r m_m m_intrusive]; auto.
  - intros Hn. apply (f_equal (@length mop)) in Hn. unfold ops in Hn. rewrite clear_ops_length in Hn. destruct (m_ops d); [congruence|discriminate].
  - intros o Ho e Ee. apply (si_valid0 o); auto. apply clear_sub; auto. congruence.
  - congruence.
  - unfold ops. rewrite clear_ops_length. auto.
  - intros i Hi. destruct HFr as (_ & _ & _ & _ & _ & _ & _ & _ & Hk & _). cbn in Hk. rewrite Hk by auto. auto.
  - intros i j o o' Hi Hj Eo Eo' Hc. destruct (clear_entries d i o Eo) as (o1 & E1 & C1 & _). destruct (clear_entries d j o' Eo') as (o2 & E2 & C2 & _).
    apply (si_dup0 i j o1 o2); auto. congruence. Qed.

(* ---- process_fit -------------------------------------------------------------------------------------------------------- *)
Lemma cleared_frame d d' : cleared d -> m_infer d' = m_infer d -> m_ops d' = m_ops d -> cleared d'.
Proof. unfold cleared. intros H E1 E2. rewrite E1, E2. auto. Qed.

Definition pf_state (d d' : model) : Prop := sinv d' /\ frame d d' /\ cleared d'.
Lemma process_fit_inv d states lhs inputs d' x : sinv d -> m_frozen d = false -> process_fit d states lhs inputs = (d', x) ->
  pf_state d d' /\
  forall Q L' U, x = Ok (Q, L', U) -> let L := atleast_2d lhs in
    Q = atleast_2d states /\ m_r d' = Some (nrows Q) /\ nrows L = nrows Q /\ ncols L = ncols Q /\
    subtract_known (m_ops d') (m_known d') Q U L = Ok L' /\
    (m_hasin d = true -> exists u, inputs = Some u /\ U = Some (M (atleast_2d u)) /\ m_m d' = Some (nrows (atleast_2d u)) /\
                                  ncols (atleast_2d u) = ncols Q) /\
    (m_hasin d = false -> U = inputs /\ m_m d' = Some 0).
Proof. intros H Hf E. unfold process_fit in E.
  destruct (clear d) as [d1 x1] eqn:EC. destruct (clear_inv d d1 x1 H Hf EC) as (-> & H1 & F1 & C1 & C1'). cbn [seqm] in E.
  set (Q0 := atleast_2d states) in *. set (L0 := atleast_2d lhs) in *.
  destruct (match m_r d1 with Some _ => (d1, Ok tt) | None => set_state_dimension (nrows Q0) d1 end) as [d2 x2] eqn:E2.
  assert (P2 : sinv d2 /\ frame d d2 /\ cleared d2).
  { destruct (m_r d1).
    - injection E2 as <- <-. auto.
    - destruct (set_r_inv _ _ _ _ H1 E2) as (S2 & O2 & N2). split; auto. destruct x2 as [[]|].
      + destruct (O2 eq_refl) as [_ ->]. split; [exact F1|exact C1].
      + rewrite (N2 ltac:(discriminate)). auto. }
  destruct P2 as (H2 & F2 & C2). destruct x2 as [[]|]; cbn [seqm] in E.
  2:{ injection E as <- <-. split; [split; auto|]. discriminate. }
  destruct (is_dim (m_r d2) (nrows Q0)) eqn:D1; cbn [negb] in E. 2:{ injection E as <- <-. split; [split; auto|]. discriminate. }
  destruct (is_dim (m_r d2) (nrows L0)) eqn:D2; cbn [negb] in E. 2:{ injection E as <- <-. split; [split; auto|]. discriminate. }
  destruct (Nat.eqb_spec (ncols L0) (ncols Q0)) as [D3|]; cbn [negb] in E. 2:{ injection E as <- <-. split; [split; auto|]. discriminate. }
  assert (Er : m_r d2 = Some (nrows Q0) /\ nrows L0 = nrows Q0).
  { unfold is_dim in *. destruct (m_r d2) as [r|]; [|discriminate]. apply Nat.eqb_eq in D1, D2. split; congruence. }
  destruct Er as [Er EL].
  assert (Hh : m_hasin d2 = m_hasin d) by apply F2.
  destruct (m_hasin d2) eqn:Eh.
  - destruct inputs as [u|]. 2:{ cbn [seqm] in E. injection E as <- <-. split; [split; auto|]. discriminate. }
    set (U0 := atleast_2d u) in *.
    destruct (match m_m d2 with Some (S _) => (d2, Ok tt) | _ => set_input_dimension (nrows U0) d2 end) as [d3 x3] eqn:E3.
    assert (P3 : sinv d3 /\ frame d d3 /\ cleared d3 /\ m_r d3 = m_r d2).
    { assert (HH : set_input_dimension (nrows U0) d2 = (d3, x3) -> sinv d3 /\ frame d d3 /\ cleared d3 /\ m_r d3 = m_r d2).
      { intros E4. destruct (set_m_inv _ _ _ _ H2 E4) as (S3 & O3 & N3). split; auto. destruct x3 as [[]|].
        - destruct (O3 eq_refl) as [_ ->]. split; [exact F2|split; [exact C2|reflexivity]].
        - rewrite (N3 ltac:(discriminate)). auto. }
      destruct (m_m d2) as [[|mm]|]; auto. injection E3 as <- <-. auto. }
    destruct P3 as (H3 & F3 & C3 & R3). destruct x3 as [[]|]; cbn [seqm] in E.
    2:{ injection E as <- <-. split; [split; auto|]. discriminate. }
    destruct (is_dim (m_m d3) (nrows U0)) eqn:D4; cbn [negb] in E. 2:{ cbn [seqm] in E. injection E as <- <-. split; [split; auto|]. discriminate. }
    destruct (Nat.eqb_spec (ncols U0) (ncols Q0)) as [D5|]; cbn [negb] in E; cbn [seqm] in E. 2:{ injection E as <- <-. split; [split; auto|]. discriminate. }
    injection E as <- <-. split; [split; auto|]. intros Q L' U EQ. destruct (subtract_known _ _ _ _ _) as [L1|] eqn:ES; [|discriminate]. cbn [bind] in EQ.
    injection EQ as <- <- <-. cbn zeta. split; auto. split; [congruence|]. split; auto. split; auto. split; auto. split; [|congruence].
    intros _. exists u. split; auto. split; auto. split; auto. unfold is_dim in D4. destruct (m_m d3) as [mm|]; [|discriminate]. apply Nat.eqb_eq in D4. subst; auto.
  - cbn [seqm] in E. injection E as <- <-. split; [split; auto|]. intros Q L' U EQ. destruct (subtract_known _ _ _ _ _) as [L1|] eqn:ES; [|discriminate].
    cbn [bind] in EQ. injection EQ as <- <- <-. cbn zeta. split; auto. split; auto. split; auto. split; auto. split; auto. split; [congruence|].
    intros _. split; auto. apply (si_noin d2 H2). auto. Qed.

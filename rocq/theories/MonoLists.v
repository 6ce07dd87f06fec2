(* MonoLists.v -- lists of operators: updating, clearing, extracting blocks of columns. *)
From Coq Require Import ZArith String.
From Verif Require Export SpecMono AffProofs InterpProofs OpsProofs BlockAlg LinAlg MatAlg.
#[local] Open Scope nat_scope.

(* ---- upd and clear_ops ------------------------------------------------------------------------------------------------ *)
Lemma upd_length {A} i (x : A) l : length (upd i x l) = length l.
Proof. revert i. induction l as [|a l IH]; intros [|i]; cbn; auto. Qed.
Lemma upd_same {A} i (x : A) l : i < length l -> nth_error (upd i x l) i = Some x.
Proof. revert i. induction l as [|a l IH]; intros [|i] H; cbn in *; try lia; auto; apply IH; lia. Qed.
Lemma upd_other {A} i j (x : A) l : i <> j -> nth_error (upd i x l) j = nth_error l j.
Proof. revert i j. induction l as [|a l IH]; intros [|i] [|j] H; cbn; auto; try congruence; apply IH; congruence. Qed.
Lemma clear_ops_length ix l : length (clear_ops ix l) = length l.
Proof. unfold clear_ops. revert l. induction ix as [|i ix IH]; intros l; cbn [fold_left]; auto.
  rewrite IH. destruct (nth_error l i); auto. apply upd_length. Qed.
Lemma clear_ops_out ix : forall l j, ~ In j ix -> nth_error (clear_ops ix l) j = nth_error l j.
Proof. unfold clear_ops. induction ix as [|i ix IH]; intros l j H; cbn [fold_left]; auto.
  rewrite IH by (intros ?; apply H; right; auto). destruct (nth_error l i); auto. apply upd_other. intros ->. apply H; left; auto. Qed.
Lemma clear_ops_in ix : forall l j, In j ix -> nth_error (clear_ops ix l) j = option_map clear_op (nth_error l j).
Proof. unfold clear_ops. induction ix as [|i ix IH]; intros l j H; [destruct H|]. cbn [fold_left].
  destruct (in_dec Nat.eq_dec j ix) as [Hin|Hout].
  - rewrite IH by auto. destruct (Nat.eq_dec i j) as [->|Hne].
    + destruct (nth_error l j) as [o|] eqn:E; [|rewrite E; auto]. rewrite upd_same; auto. apply nth_error_Some. congruence.
    + destruct (nth_error l i); auto. rewrite upd_other by auto. auto.
  - destruct H as [->|H]; [|contradiction]. fold (clear_ops ix) in *.
    change (fold_left _ ix ?x) with (clear_ops ix x). rewrite clear_ops_out by auto.
    destruct (nth_error l j) as [o|] eqn:E; [|rewrite E; auto]. cbn. apply upd_same. apply nth_error_Some. congruence. Qed.

(* ---- indices -------------------------------------------------------------------------------------------------------- *)
Lemma partition_perm {A} (f : A -> bool) l : Permutation (filter f l ++ filter (fun x => negb (f x)) l) l.
Proof. induction l as [|a l IH]; cbn; auto. destruct (f a); cbn.
  - constructor; auto.
  - etransitivity; [symmetry; apply Permutation_middle|]. constructor; auto. Qed.
Lemma in_indices p l i : In i (indices p l) <-> exists o, nth_error l i = Some o /\ p o = true.
Proof. unfold indices. rewrite filter_In, in_seq. split.
  - intros [_ H]. destruct (nth_error l i) as [o|]; [|discriminate]. exists o; auto.
  - intros (o & E & H). rewrite E. split; auto. split; [lia|]. cbn. apply nth_error_Some. congruence. Qed.
Lemma indices_perm p l : Permutation (indices p l ++ indices (fun o => negb (p o)) l) (seq 0 (length l)).
Proof. etransitivity; [|apply (partition_perm (fun i => match nth_error l i with Some o => p o | None => false end))].
  apply Permutation_app_head. unfold indices. apply Permutation_refl'. apply filter_ext_in. intros i Hi. apply in_seq in Hi.
  destruct (nth_error l i) as [o|] eqn:E; auto. apply nth_error_None in E. lia. Qed.
Lemma indices_nodup p l : NoDup (indices p l).
Proof. unfold indices. apply NoDup_filter, seq_NoDup. Qed.

(* ---- one_of and the dimension checks --------------------------------------------------------------------------------- *)
Lemma one_of_ok l x : one_of l = Ok x -> match x with None => l = [] | Some a => l <> [] /\ Forall (eq a) l end.
Proof. destruct l as [|a l]; cbn; [intros [= <-]; auto|]. destruct (forallb (Nat.eqb a) l) eqn:E; [|discriminate].
  intros [= <-]. split; [congruence|]. constructor; auto. apply Forall_forall. intros b Hb.
  rewrite forallb_forall in E. apply Nat.eqb_eq. auto. Qed.
Lemma in_entries_of l e : In e (entries_of l) <-> exists o, In o l /\ mo_ent o = Some e.
Proof. unfold entries_of. rewrite in_flat_map. split.
  - intros (o & Ho & H). exists o. split; auto. destruct (mo_ent o); cbn in H; [|contradiction]. destruct H as [->|[]]; auto.
  - intros (o & Ho & E). exists o. rewrite E. split; cbn; auto. Qed.
Lemma state_dim_ok l x : state_dim l = Ok x ->
  match x with Some r => (exists e, In e (entries_of l)) /\ forall e, In e (entries_of l) -> op_rows e = r
             | None => entries_of l = [] end.
Proof. intros H. apply one_of_ok in H. destruct x as [r|].
  - destruct H as [H1 H2]. split.
    + destruct (entries_of l) as [|e t]; [elim H1; auto|]. exists e; left; auto.
    + intros e He. rewrite Forall_forall in H2. symmetry. apply H2. apply in_map; auto.
  - apply map_eq_nil in H. auto. Qed.
Lemma existsb_false_filter {A} (p : A -> bool) l : existsb p l = false -> filter p l = [].
Proof. induction l as [|a l IH]; cbn; auto. destruct (p a); [discriminate|auto]. Qed.
Lemma input_dim_ok l x : input_dim l = Ok x ->
  match x with
  | Some m => (existsb takes_input l = false -> m = 0) /\
              (forall o e, In o l -> takes_input o = true -> mo_ent o = Some e -> op_inputs e = m) /\
              (existsb takes_input l = true -> exists o e, In o l /\ takes_input o = true /\ mo_ent o = Some e)
  | None => existsb takes_input l = true /\ forall o, In o l -> takes_input o = true -> mo_ent o = None end.
Proof. unfold input_dim. intros H. destruct (filter takes_input l) as [|o0 l0] eqn:EF.
  - assert (HN : forall o, In o l -> takes_input o = false).
    { intros o Ho. destruct (takes_input o) eqn:E; auto. assert (In o (filter takes_input l)) by (apply filter_In; auto).
      rewrite EF in H0. destruct H0. }
    injection H as <-. split; [auto|]. split; [intros o e Ho Ht; rewrite HN in Ht by auto; discriminate|].
    intros He. apply existsb_exists in He. destruct He as (o & Ho & Ht). rewrite HN in Ht by auto. discriminate.
  - assert (HE : existsb takes_input l = true).
    { apply existsb_exists. exists o0. apply filter_In. rewrite EF. left; auto. }
    rewrite <- EF in H. clear EF o0 l0. apply one_of_ok in H. destruct x as [m|].
    + destruct H as [H1 H2]. split; [rewrite HE; discriminate|]. split.
      * intros o e Ho Ht Ee. rewrite Forall_forall in H2. symmetry. apply H2. apply in_map, in_entries_of. exists o.
        split; auto. apply filter_In; auto.
      * intros _. destruct (entries_of (filter takes_input l)) as [|e t] eqn:Ee; [elim H1; auto|].
        assert (Hin : In e (entries_of (filter takes_input l))) by (rewrite Ee; left; auto).
        apply in_entries_of in Hin. destruct Hin as (o & Ho & Heo). apply filter_In in Ho. exists o, e. tauto.
    + split; auto. intros o Ho Ht. destruct (mo_ent o) as [e|] eqn:Ee; auto. exfalso. apply map_eq_nil in H.
      assert (In e (entries_of (filter takes_input l))) by (apply in_entries_of; exists o; split; auto; apply filter_In; auto).
      rewrite H in H0. destruct H0. Qed.

(* ---- classes ---------------------------------------------------------------------------------------------------------- *)
Lemma degree_eqb_eq a b : degree_eqb a b = true <-> a = b.
Proof. destruct a, b; cbn; split; congruence. Qed.
Lemma cls_eqb_eq a b : cls_eqb a b = true <-> a = b.
Proof. destruct a, b; cbn; try (split; congruence). rewrite degree_eqb_eq. split; congruence. Qed.
Lemma duplicates_nodup l : duplicates l = false <-> NoDup l.
Proof. induction l as [|c l IH]; cbn [duplicates]; [split; [constructor|auto]|]. rewrite Bool.orb_false_iff, IH. split.
  - intros [H1 H2]. constructor; auto. intros Hin. assert (existsb (cls_eqb c) l = true); [|congruence].
    apply existsb_exists. exists c. split; auto. apply cls_eqb_eq; auto.
  - inversion 1; subst. split; auto. destruct (existsb (cls_eqb c) l) eqn:E; auto. apply existsb_exists in E.
    destruct E as (c' & Hin & E). apply cls_eqb_eq in E. subst. contradiction. Qed.

(* ---- entries of a two-dimensional block ----------------------------------------------------------------------------- *)
Lemma set_2d_ok c r m E : 0 < r -> is_mat r (opdim (proto c) r m) E ->
  exists e, set_2d c E = Ok e /\ wf_op r m e /\ cls_of e = c /\ entries2 e = E.
Proof. intros Hr HE. destruct (construct_ok c r m E Hr HE) as (e & H1 & H2 & H3 & H4). exists e.
  split; [|auto]. destruct c; auto. unfold set_2d. cbn in HE. rewrite (ncols_is_mat r 1 E HE Hr). cbn [Nat.eqb]. f_equal.
  destruct e; cbn in H3; try discriminate. f_equal. cbn in H4. rewrite <- H4. rewrite map_map. cbn. rewrite map_id. reflexivity. Qed.
Lemma is_mat_mcols r d a b O : is_mat r d O -> a <= b -> b <= d -> is_mat r (b - a) (mcols a b O).
Proof. intros [H1 H2] Hab Hb. unfold mcols. split; [rewrite map_length; auto|]. apply Forall_forall. intros row Hr.
  apply in_map_iff in Hr. destruct Hr as (row0 & <- & Hin). rewrite Forall_forall in H2.
  rewrite slice_length by (auto; rewrite H2 by auto; auto). reflexivity. Qed.
Lemma mget_mcols r d a b O i j : is_mat r d O -> i < r -> j < b - a -> mget (mcols a b O) i j = mget O i (a + j).
Proof. intros [H1 H2] Hi Hj. unfold mget, mcols. rewrite (nth_map_in _ _ _ _ []) by lia. apply slice_nth; auto. Qed.
Lemma mcols_all r d O : is_mat r d O -> mcols 0 d O = O.
Proof. intros HO. apply (mat_ext r d); auto. { assert (H := is_mat_mcols r d 0 d O HO). rewrite Nat.sub_0_r in H. apply H; lia. }
  intros i j Hi Hj. apply (mget_mcols r d); auto. lia. Qed.
Lemma hcat_mcols r d a b c O : is_mat r d O -> a <= b -> b <= c -> c <= d -> hcat (mcols a b O) (mcols b c O) = mcols a c O.
Proof. intros HO H1 H2 H3. assert (Ha := is_mat_mcols r d a b O HO H1 ltac:(lia)).
  assert (Hb := is_mat_mcols r d b c O HO H2 H3). assert (Hc := is_mat_mcols r d a c O HO ltac:(lia) H3).
  apply (mat_ext r (c - a)); auto. { replace (c - a) with ((b - a) + (c - b)) by lia. apply is_mat_hcat; auto. }
  intros i j Hi Hj. rewrite (mget_hcat r (b - a) (c - b)) by auto. rewrite (mget_mcols r d a c) by auto.
  destruct (Nat.ltb_spec j (b - a)).
  - apply (mget_mcols r d); auto.
  - rewrite (mget_mcols r d) by (auto; lia). f_equal. lia. Qed.

(* the columns operator number i of l occupies *)
Definition wd (r m : nat) (l : list mop) (i : nat) : nat :=
  match nth_error l i with Some o => opdim (proto (mo_cls o)) r m | None => 0 end.
Definition ent_at (l : list mop) (r m i : nat) (o : mop) (e : op) (l' : list mop) : Prop :=
  nth_error l i = Some o /\ nth_error l' i = Some {| mo_cls := mo_cls o; mo_ent := Some e |} /\ cls_of e = mo_cls o /\ wf_op r m e.
(* the entries of the operators ix are the successive blocks of columns of O starting at idx *)
Fixpoint at_cols (r m : nat) (O : mat) (idx : nat) (ix : list nat) (l : list mop) (es : list op) : Prop :=
  match ix, es with
  | [], [] => True
  | i :: t, e :: es' => entries2 e = mcols idx (idx + wd r m l i) O /\ at_cols r m O (idx + wd r m l i) t l es'
  | _, _ => False
  end.
Lemma wd_upd_cls r m l i x j o : nth_error l i = Some o -> mo_cls x = mo_cls o -> wd r m (upd i x l) j = wd r m l j.
Proof. intros E Hc. unfold wd. destruct (Nat.eq_dec i j) as [->|Hn]; [|rewrite upd_other by auto; auto].
  rewrite upd_same by (apply nth_error_Some; congruence). rewrite E, Hc. reflexivity. Qed.
Lemma at_cols_ext r m O l l' : (forall j, wd r m l' j = wd r m l j) -> forall ix idx es, at_cols r m O idx ix l' es -> at_cols r m O idx ix l es.
Proof. intros H. induction ix as [|i ix IH]; intros idx [|e es]; cbn; auto. rewrite H. intros [H1 H2]; split; auto. Qed.

Lemma extract_ok r m O d : 0 < r -> is_mat r d O -> forall ix idx l, NoDup ix -> (forall i, In i ix -> i < length l) ->
  idx + lsumn (map (wd r m l) ix) <= d ->
  exists l' es, extract (Some r) (Some m) O idx ix l = (l', Ok tt) /\ length l' = length l /\
    (forall i, ~ In i ix -> nth_error l' i = nth_error l i) /\
    Forall2 (fun i e => exists o, ent_at l r m i o e l') ix es /\ at_cols r m O idx ix l es.
Proof. intros Hr HO. induction ix as [|i ix IH]; intros idx l Hnd Hin Hle.
  - exists l, []. repeat split; cbn; auto.
  - cbn [extract]. assert (Hi := Hin i (or_introl eq_refl)). destruct (nth_error l i) as [o|] eqn:Eo; [|apply nth_error_None in Eo; lia].
    cbn [width bind]. change (lsumn (map (wd r m l) (i :: ix))) with (wd r m l i + lsumn (map (wd r m l) ix)) in Hle.
    assert (Ew : wd r m l i = opdim (proto (mo_cls o)) r m) by (unfold wd; rewrite Eo; auto). rewrite <- Ew.
    destruct (set_2d_ok (mo_cls o) r m (mcols idx (idx + wd r m l i) O) Hr) as (e & E1 & E2 & E3 & E4).
    { rewrite <- Ew. replace (wd r m l i) with (idx + wd r m l i - idx) at 1 by lia. apply (is_mat_mcols r d); auto; lia. }
    rewrite E1. cbn [bind]. set (x := {| mo_cls := mo_cls o; mo_ent := Some e |}). inversion Hnd as [|? ? Hni Hnd']; subst.
    assert (HW : forall j, wd r m (upd i x l) j = wd r m l j) by (intros j; apply (wd_upd_cls r m l i x j o); auto).
    destruct (IH (idx + wd r m l i) (upd i x l)) as (l' & es & H1 & H2 & H3 & H4 & H5); auto.
    { intros j Hj. rewrite upd_length. apply Hin; right; auto. }
    { rewrite (map_ext _ _ HW). lia. }
    exists l', (e :: es). split; [exact H1|]. rewrite upd_length in H2. split; [exact H2|]. split.
    { intros j Hj. rewrite H3 by (intros ?; apply Hj; right; auto). apply upd_other. intros ->; apply Hj; left; auto. }
    split.
    + constructor.
      * exists o. split; auto. rewrite H3 by auto. rewrite upd_same by auto. auto.
      * clear - H4 Hni. induction H4 as [|j e' ix es (o' & Ho' & Hr') H4 IH]; constructor.
        -- exists o'. rewrite upd_other in Ho' by (intros ->; apply Hni; left; auto). split; auto.
        -- apply IH. intros Hx; apply Hni; right; auto.
    + cbn. split; auto. apply (at_cols_ext r m O l (upd i x l) HW); auto. Qed.

Lemma at_cols_hstack r m O d : is_mat r d O -> forall ix idx l es, ix <> [] -> idx + lsumn (map (wd r m l) ix) <= d ->
  at_cols r m O idx ix l es -> hstack (map entries2 es) = mcols idx (idx + lsumn (map (wd r m l) ix)) O.
Proof. intros HO. induction ix as [|i ix IH]; intros idx l es Hne Hle H; [congruence|]. destruct es as [|e es]; [destruct H|].
  cbn [at_cols] in H. destruct H as [H1 H2].
  change (lsumn (map (wd r m l) (i :: ix))) with (wd r m l i + lsumn (map (wd r m l) ix)) in *. destruct ix as [|j ix].
  - destruct es; [|destruct H2]. cbn [map hstack fold_left]. unfold hstack. cbn. rewrite H1. f_equal. change (lsumn (map (wd r m l) [])) with 0. lia.
  - assert (IH2 := IH (idx + wd r m l i) l es ltac:(congruence) ltac:(lia) H2). change (map entries2 (e :: es)) with (entries2 e :: map entries2 es).
    destruct es as [|e2 es]; [destruct H2|]. rewrite (hstack_cons r).
    + rewrite IH2, H1. rewrite Nat.add_assoc. apply (hcat_mcols r d); auto; lia.
    + rewrite H1. unfold mcols. rewrite map_length. destruct HO; auto.
    + clear - H2 HO. revert H2. generalize (idx + wd r m l i). generalize (j :: ix). generalize (e2 :: es).
      intros es' ix'. revert es'. induction ix' as [|i' ix' IH]; intros [|e' es'] idx' H; cbn in H; try destruct H as [H H']; try contradiction; constructor.
      * rewrite H. unfold mcols. rewrite map_length. destruct HO; auto.
      * eapply IH; eauto.
    + cbn; congruence. Qed.

(* BasisNames.v -- the constructor of BasisMulti and access by name. *)
From Coq Require Import ZArith.
From Verif Require Import LinAlg PreFinal BasisProofs BasisMultiProofs SpecBasis.
#[local] Open Scope nat_scope.

Lemma map2_nth_some {A B C} (f : A -> B -> C) : forall la lb i a b, nth_error la i = Some a -> nth_error lb i = Some b -> nth_error (map2 f la lb) i = Some (f a b).
Proof. induction la as [|x la IH]; intros [|y lb] [|i] a b H1 H2; cbn in *; try discriminate. - injection H1 as <-. injection H2 as <-. reflexivity. - auto. Qed.
Lemma seq_nth_some n i : i < n -> nth_error (seq 0 n) i = Some i.
Proof. intros H. rewrite (nth_error_nth' _ 0) by now rewrite seq_length. now rewrite seq_nth. Qed.
Lemma default_keeps i b : let b' := name_default i b in
  b_name b' = Some (match b_name b with Some s => s | None => variable_name i end) /\ b_n b' = b_n b /\ b_r b' = b_r b /\ b_entries b' = b_entries b /\ b_weights b' = b_weights b.
Proof. unfold name_default. cbv zeta. destruct (b_name b) eqn:E; [repeat split; auto|]. destruct b; cbn in *; repeat split; auto. Qed.
Lemma setn_keeps n b : let b' := b_set_n n b in b_name b' = b_name b /\ b_n b' = Some n /\ b_r b' = b_r b /\ b_entries b' = b_entries b /\ b_weights b' = b_weights b.
Proof. destruct b; cbn; repeat split; auto. Qed.
Lemma new_multi bs sizes : match mk_bmulti bs sizes with
  | Ok bs' => bs <> [] /\ length bs' = length bs /\ (forall ns, sizes = Some ns -> length ns = length bs) /\
      forall i b, nth_error bs i = Some b -> exists b', nth_error bs' i = Some b' /\
        b_name b' = Some (match b_name b with Some s => s | None => variable_name i end) /\ b_n b' = (match sizes with Some ns => nth_error ns i | None => b_n b end) /\
        b_r b' = b_r b /\ b_entries b' = b_entries b /\ b_weights b' = b_weights b
  | Err e => e = ValueError /\ (bs = [] \/ exists ns, sizes = Some ns /\ length ns <> length bs)
  end.
Proof.
  unfold mk_bmulti. destruct (Nat.eqb_spec (length bs) 0) as [H0|H0]; cbn [bind].
  { split; auto. left. now apply length_zero_iff_nil. }
  assert (Hne : bs <> []) by (intros ->; auto).
  assert (G : forall i b, nth_error bs i = Some b -> nth_error (map2 name_default (seq 0 (length bs)) bs) i = Some (name_default i b)).
  { intros i b Hb. apply map2_nth_some; auto. apply seq_nth_some. apply nth_error_Some. congruence. }
  assert (Ln : length (map2 name_default (seq 0 (length bs)) bs) = length bs) by (rewrite map2_length, seq_length; lia).
  destruct sizes as [ns|].
  - destruct (Nat.eqb_spec (length ns) (length bs)) as [HL|HL]; [|split; eauto]. split; auto. split; [rewrite map2_length; lia|]. split; [intros ? E; injection E as <-; auto|].
    intros i b Hb. assert (Hi : i < length ns) by (rewrite HL; apply nth_error_Some; congruence). destruct (nth_error ns i) as [n|] eqn:En; [|apply nth_error_None in En; lia].
    exists (b_set_n n (name_default i b)). split; [apply map2_nth_some; auto|]. destruct (default_keeps i b) as (A1 & A2 & A3 & A4 & A5). destruct (setn_keeps n (name_default i b)) as (B1 & B2 & B3 & B4 & B5).
    repeat split; congruence.
  - split; auto. split; auto. split; [discriminate|]. intros i b Hb. exists (name_default i b). split; auto. apply default_keeps.
Qed.
Lemma get_named ns rs bs a i s b : members ns rs bs -> nth_error bs i = Some b -> b_name b = Some s -> (forall j b', j < i -> nth_error bs j = Some b' -> b_name b' <> Some s) ->
  (alen a = lsumn ns -> bget_var bs (VName s) a = Ok (var_rows ns i a)) /\
  (alen a = lsumn rs -> Forall2 le rs ns -> bget_var bs (VName s) a = Ok (var_rows rs i a)).
Proof.
  intros Hm Hb Hs Hf. assert (Hi : i < length bs) by (apply nth_error_Some; congruence).
  assert (E : bget_var bs (VName s) a = bget_var bs (VIdx (Z.of_nat i)) a).
  { unfold bget_var. rewrite (index_of_first s (map b_name bs) i 0); [reflexivity| |].
    - rewrite nth_error_map, Hb. cbn. congruence.
    - intros k Hk. rewrite nth_error_map. destruct (nth_error bs k) as [b'|] eqn:Eb; [|discriminate]. cbn. intros E. injection E as E. exact (Hf k b' Hk Eb E). }
  rewrite E. exact (C12_get_var ns rs bs a i Hm Hi).
Qed.

(* ObjEq.v -- equality of models of any operator objects. *)
From Coq Require Import ZArith String.
From Verif Require Import MonoEq.
From Verif Require Import SpecAnyObj.
#[local] Open Scope nat_scope.
#[local] Open Scope list_scope.

(* the first element with p is taken out *)
Fixpoint take {A} (p : A -> bool) (l : list A) : option (list A) :=
  match l with [] => None | b :: t => if p b then Some t else option_map (cons b) (take p t) end.
Fixpoint greedy {A} (R : A -> A -> bool) (l l' : list A) : bool :=
  match l with [] => true | o :: t => match take (R o) l' with Some l'' => greedy R t l'' | None => false end end.
Lemma take_len {A} (p : A -> bool) l l' : take p l = Some l' -> length l = S (length l').
Proof. revert l'. induction l as [|b l IH]; intros l' E; [discriminate|]. cbn in E. destruct (p b); [injection E as <-; auto|]. destruct (take p l) as [t|]; [|discriminate].
  injection E as <-. cbn. rewrite (IH t); auto. Qed.
Lemma greedy_left {A} (R : A -> A -> bool) p : forall l l', length l = S (length l') ->
  greedy R l (p :: l') = match take (fun x => R x p) l with Some l0 => greedy R l0 l' | None => false end.
Proof. induction l as [|x l IH]; intros l' HL; [discriminate|]. cbn [greedy take]. destruct (R x p); auto. destruct (take (R x) l') as [l''|] eqn:E; cbn [option_map].
  - assert (K := take_len _ _ _ E). cbn in HL. rewrite IH by lia. destruct (take (fun x0 => R x0 p) l) as [l0|]; cbn [option_map]; auto. cbn [greedy]. rewrite E. auto.
  - destruct (take (fun x0 => R x0 p) l) as [l0|]; cbn [option_map]; auto. cbn [greedy]. rewrite E. auto. Qed.
Lemma greedy_sym {A} (R R' : A -> A -> bool) : (forall a b, R a b = R' b a) -> forall l' l, length l = length l' -> greedy R l l' = greedy R' l' l.
Proof. intros HR. induction l' as [|p l' IH]; intros l HL. { destruct l; [auto|discriminate]. }
  rewrite greedy_left by (cbn in HL; lia). cbn [greedy].
  assert (HT : forall l0, take (fun x => R x p) l0 = take (R' p) l0) by (intros l0; induction l0 as [|b l0 IH0]; auto; cbn; rewrite HR, IH0; auto). rewrite HT.
  destruct (take (R' p) l) as [l0|] eqn:E; auto. apply take_len in E. apply IH. cbn in HL. lia. Qed.
Lemma take_split {A} (p : A -> bool) l l' : take p l = Some l' -> exists b, p b = true /\ Permutation l (b :: l').
Proof. revert l'. induction l as [|b l IH]; intros l' E; [discriminate|]. cbn in E. destruct (p b) eqn:Ep; [injection E as <-; exists b; auto|]. destruct (take p l) as [t|]; [|discriminate].
  injection E as <-. destruct (IH t eq_refl) as (c & Hc & HP). exists c. split; auto. rewrite HP. apply perm_swap. Qed.
Lemma greedy_pairs {A} (R : A -> A -> bool) : forall l l', length l = length l' -> greedy R l l' = true -> exists p, Permutation p l' /\ Forall2 (fun x y => R x y = true) l p.
Proof. induction l as [|x l IH]; intros l' HL E. { destruct l'; [|discriminate]. exists []. auto. }
  cbn in E. destruct (take (R x) l') as [t|] eqn:ET; [|discriminate]. assert (K := take_len _ _ _ ET). destruct (take_split _ _ _ ET) as (b & Hb & HP).
  destruct (IH t) as (p & H1 & H2); auto; [cbn in HL; lia|]. exists (b :: p). split; [rewrite HP; auto|auto]. Qed.
Lemma take_none {A} (p : A -> bool) l : take p l = None -> forall b, In b l -> p b = false.
Proof. induction l as [|c l IH]; intros E b Hb; [destruct Hb|]. cbn in E. destruct (p c) eqn:Ec; [discriminate|]. destruct (take p l); [discriminate|]. destruct Hb as [->|Hb]; auto. Qed.
(* with an equivalence, pairs can be exchanged *)
Lemma perm_pairs {A} (R : A -> A -> bool) p : forall l l', Permutation l l' -> Forall2 (fun x y => R x y = true) p l -> exists p', Permutation p p' /\ Forall2 (fun x y => R x y = true) p' l'.
Proof. intros l l' HP. revert p. induction HP as [|x l l' HP IH|x y l|l l' l'' HP1 IH1 HP2 IH2]; intros p HF.
  - inversion HF. exists []. auto.
  - inversion HF as [|a b p0 l0 Ha HF0]; subst. destruct (IH _ HF0) as (p' & H1 & H2). exists (a :: p'). auto.
  - inversion HF as [|a b p0 l0 Ha HF0]; subst. inversion HF0 as [|a' b' p1 l1 Ha' HF1]; subst. exists (a' :: a :: p1). split; [apply perm_swap|auto].
  - destruct (IH1 _ HF) as (p' & H1 & H2). destruct (IH2 _ H2) as (p'' & H3 & H4). exists p''. split; [eapply perm_trans; eauto|auto]. Qed.
Lemma pairs_greedy {A} (R : A -> A -> bool) : (forall a, R a a = true) -> (forall a b, R a b = R b a) -> (forall a b c, R a b = true -> R b c = true -> R a c = true) ->
  forall l p l', Permutation p l' -> Forall2 (fun x y => R x y = true) l p -> greedy R l l' = true.
Proof. intros Rr Rs Rt. induction l as [|x l IH]; intros p l' HP HF; auto. cbn. inversion HF as [|x0 b l0 p0 Hb HF0]; subst.
  destruct (take (R x) l') as [t|] eqn:ET.
  - destruct (take_split _ _ _ ET) as (c & Hc & HP'). assert (HQ : Permutation (b :: p0) (c :: t)) by (eapply perm_trans; eauto).
    assert (Hbc : R b c = true) by (apply (Rt b x c); [rewrite Rs; auto|auto]).
    (* p0 and t are paired: either b is matched with c, or they are exchanged *)
    assert (HX : exists p1, Permutation p1 t /\ Forall2 (fun x y => R x y = true) p0 p1).
    { assert (HI : Forall2 (fun x y => R x y = true) (c :: t) (c :: t)) by (clear - Rr; generalize (c :: t); induction l; auto).
      assert (Hin : In c (b :: p0)) by (apply Permutation_in with (c :: t); [apply Permutation_sym; auto|left; auto]). destruct Hin as [->|Hin].
      - exists p0. split; [apply Permutation_cons_inv in HQ; auto|]. clear - Rr. induction p0; auto.
      - apply in_split in Hin. destruct Hin as (u & v & ->). exists (u ++ b :: v). split.
        + apply Permutation_cons_inv with c. rewrite <- HQ. rewrite <- (Permutation_middle u v b), <- (Permutation_middle u v c). apply perm_swap.
        + apply Forall2_app; [clear - Rr; induction u; auto|]. constructor; [rewrite Rs; auto|]. clear - Rr. induction v; auto. }
    destruct HX as (p1 & H1 & H2). apply (IH p1 t); auto. clear - HF0 H2 Rt. revert p1 H2. induction HF0; intros p1 H2; inversion H2; subst; auto. constructor; eauto.
  - exfalso. assert (K := take_none _ _ ET b). rewrite K in Hb; [discriminate|]. apply (Permutation_in _ HP). left; auto. Qed.

(* the code's marks *)
Fixpoint oum {A} (l : list A) (marked : list nat) (i : nat) : list A :=
  match l with [] => [] | b :: t => if existsb (Nat.eqb i) marked then oum t marked (S i) else b :: oum t marked (S i) end.
Lemma oum_nil {A} (l : list A) i : oum l [] i = l. Proof. revert i. induction l as [|b l IH]; intros i; cbn; auto. rewrite IH. auto. Qed.
Lemma oum_lt {A} (l : list A) marked i j : j < i -> oum l (j :: marked) i = oum l marked i.
Proof. revert i. induction l as [|b l IH]; intros i Hj; auto. cbn [oum existsb]. destruct (Nat.eqb_spec i j); [lia|]. cbn [orb]. rewrite IH by lia. auto. Qed.
Lemma ofind_take W o l marked i : match ofind W o l marked i with
  | Some j => i <= j /\ take (w_eq W o) (oum l marked i) = Some (oum l (j :: marked) i)
  | None => take (w_eq W o) (oum l marked i) = None end.
Proof. revert i. induction l as [|b l IH]; intros i; cbn [ofind oum]; auto. specialize (IH (S i)). destruct (existsb (Nat.eqb i) marked) eqn:Em; cbn [negb].
  - rewrite Bool.andb_false_r. destruct (ofind W o l marked (S i)) as [j|]; auto. destruct IH as [Hj E]. split; [lia|]. cbn [existsb]. destruct (Nat.eqb_spec i j); [lia|]. cbn [orb]. rewrite Em. auto.
  - rewrite Bool.andb_true_r. cbn [take]. destruct (w_eq W o b).
    + split; auto. cbn [existsb]. rewrite Nat.eqb_refl. cbn [orb]. rewrite oum_lt by lia. auto.
    + destruct (ofind W o l marked (S i)) as [j|]; [|rewrite IH; auto]. destruct IH as [Hj E]. split; [lia|]. rewrite E. cbn [existsb option_map]. destruct (Nat.eqb_spec i j); [lia|]. cbn [orb]. rewrite Em. auto. Qed.
Lemma omatch_greedy W l l' : forall marked, omatch W l l' marked = greedy (w_eq W) l (oum l' marked 0).
Proof. induction l as [|o l IH]; intros marked; auto. cbn [omatch greedy]. assert (H := ofind_take W o l' marked 0). destruct (ofind W o l' marked 0) as [j|]; [destruct H as [_ ->]; apply IH|rewrite H; auto]. Qed.

Lemma kind_eqb_eq a b : kind_eqb a b = true <-> a = b. Proof. destruct a, b; cbn; split; congruence. Qed.
Lemma oeq_iff W a b : omodel_eqb W a b = true <-> same_frame a b /\ length (om_ops a) = length (om_ops b) /\ greedy (w_eq W) (om_ops a) (om_ops b) = true.
Proof. unfold omodel_eqb, same_frame. rewrite omatch_greedy, oum_nil, !Bool.andb_true_iff, !odim_eqb_eq, Nat.eqb_eq, kind_eqb_eq. intuition congruence. Qed.
Theorem oeq_symmetric W a b : (forall x y, w_eq W x y = w_eq W y x) -> omodel_eqb W a b = omodel_eqb W b a.
Proof. intros HS. apply Bool.eq_true_iff_eq. rewrite !oeq_iff. unfold same_frame. split; intros ((H1 & H2 & H3) & H4 & H5); (repeat split; auto); rewrite <- H5; symmetry; apply greedy_sym; auto. Qed.
Theorem oeq_means_paired W a b : omodel_eqb W a b = true -> same_frame a b /\ paired W a b.
Proof. rewrite oeq_iff. intros (H1 & H2 & H3). split; auto. unfold paired. apply greedy_pairs; auto. Qed.
Theorem oeq_equivalence W a b : equivalence_eq W -> (omodel_eqb W a b = true <-> same_frame a b /\ paired W a b).
Proof. intros (Rr & Rs & Rt). split; [apply oeq_means_paired|]. intros (HS & p & HP & HF). rewrite oeq_iff. split; auto. split.
  - rewrite <- (Permutation_length HP). clear - HF. induction HF; cbn; auto.
  - apply (pairs_greedy (w_eq W) Rr Rs Rt _ p); auto. Qed.

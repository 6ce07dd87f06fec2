(* RegselCore.v -- lemmas about the selection of the regularization: the search, for any model. *)
From Coq Require Import ZArith Reals Lia Lra.
From Verif Require Import GridFinal.
From Verif Require Export SpecRegsel.
#[local] Open Scope nat_scope.

Section Core.
  Context {St : Type}.
  Variable update : St -> param -> St * res unit.
  Variables (bounded : R -> R -> strat) (nm : list fnum -> strat).
  Hypothesis (Hb : forall a b, honest [] (bounded a b)) (Hn : forall x, honest [] (nm x)).
  Variables (Inv : St -> Prop) (d0 : St).
  Hypothesis (HI0 : Inv d0).
  (* updating forgets everything that earlier updates did *)
  Hypothesis Hup : forall d p, Inv d -> Inv (fst (update d p)) /\ snd (update d p) = snd (update d0 p) /\ (snd (update d0 p) = Ok tt -> fst (update d p) = fst (update d0 p)).
  Variables (tests : list (sel_test St)) (cases : list (sel_case St)) (n : nat).

  Definition goal (p : param) : res fnum := match update d0 p with (_, Err _) => Ok PInf | (d', Ok _) => score tests cases n d' end.
  Lemma goal_answers : answers Inv (training_error update tests cases n) goal.
  Proof. intros d p Hd. destruct (Hup d p Hd) as (H1 & H2 & H3). unfold training_error, goal. destruct (update d p) as [d1 x1], (update d0 p) as [d2 x2]. cbn [fst snd] in *. subst x2.
    destruct x1 as [[]|e]; cbn [fst snd]; split; auto. rewrite H3; auto. Qed.
  Lemma sum_errors_kind (d : St) l : forall e v, (e = F 0%R \/ (exists x, e = F x) \/ e = SpecLift.NaN) -> sum_errors d l e = Ok (Some v) -> (exists x, v = F x) \/ v = SpecLift.NaN.
  Proof. induction l as [|c l IH]; intros e v He E; cbn [sum_errors] in E.
    - injection E as <-. destruct He as [->|[He|He]]; eauto.
    - destruct (sc_predict c d) as [s|]; [|discriminate]. cbn [bind] in E. destruct (sc_unstable c s); [discriminate|]. destruct (sc_error c s) as [x|]; [|discriminate]. cbn [bind] in E.
      apply IH in E; auto. right. unfold fadd. destruct e; auto. destruct x; eauto. Qed.
  Lemma score_kind (d : St) v : score tests cases n d = Ok v -> (exists x, v = F x) \/ v = SpecLift.NaN \/ v = PInf.
  Proof. unfold score. destruct (pass_tests d tests) as [[]|]; cbn [bind]; [|intros [= <-]; auto|discriminate]. destruct (sum_errors d cases (F 0)) as [[w|]|] eqn:E; cbn [bind]; [|intros [= <-]; auto|discriminate].
    intros [= <-]. destruct (sum_errors_kind d cases _ _ (or_introl eq_refl) E) as [[x ->]| ->]; cbn; eauto. Qed.

  (* the model the search installs *)
  Lemma select_ok only c d' : select update bounded nm only c tests cases n d0 = (d', Ok tt) ->
    exists p e, update d0 p = (d', Ok tt) /\ score tests cases n d' = Ok (F e) /\
      forall q d, In q (points c) -> update d0 q = (d, Ok tt) -> exists v, score tests cases n d = Ok v /\ forall e', v = F e' -> (e <= e')%R.
  Proof. unfold select. destruct (gridsearch (training_error update tests cases n) bounded nm only c d0) as [d1 x1] eqn:E. destruct x1 as [p|]; [|discriminate]. intros Eu.
    destruct (never_worse _ bounded nm Inv goal only c d0 d1 p goal_answers HI0 Hb Hn E) as (H1 & v & Hv & Hf & Hmin).
    destruct (Hup d1 p H1) as (_ & H2 & H3). rewrite Eu in H2, H3. cbn [fst snd] in *. symmetry in H2. specialize (H3 H2). assert (Ep : update d0 p = (d', Ok tt)) by (rewrite (surjective_pairing (update d0 p)); congruence).
    unfold goal in Hv. rewrite Ep in Hv. destruct (score_kind _ _ Hv) as [[e ->]|[->| ->]]; try contradiction. exists p, e. split; auto. split; auto.
    intros q d Hq Ed. destruct (Hmin q Hq) as (u & Hu & Hlt). unfold goal in Hu. rewrite Ed in Hu. exists u. split; auto. intros e' ->. cbn in Hlt. destruct (Rlt_dec e' e); [discriminate|lra]. Qed.
  (* nothing is stable *)
  Lemma select_none only c : well_shaped c -> (forall q d, In q (points c) -> update d0 q = (d, Ok tt) -> exists v, score tests cases n d = Ok v /\ forall e, v <> F e) ->
    exists d', Inv d' /\ select update bounded nm only c tests cases n d0 = (d', Err RuntimeError).
  Proof. intros Hc H. destruct (all_infeasible _ bounded nm Inv goal only c d0 goal_answers HI0 Hc) as (d' & H1 & E).
    - intros q Hq. unfold goal. destruct (update d0 q) as [d [[]|e]] eqn:Ed; [|exists PInf; auto]. destruct (H q d Hq Ed) as (v & Ev & Hv). exists v. split; auto.
      destruct (score_kind _ _ Ev) as [[e ->]|[->| ->]]; auto. edestruct Hv; eauto.
    - exists d'. split; auto. unfold select. rewrite E. auto. Qed.
  (* something is stable: with gridsearch_only, the search succeeds *)
  Lemma select_some c : well_shaped c -> (forall q d, In q (points c) -> update d0 q = (d, Ok tt) -> exists v, score tests cases n d = Ok v) ->
    (exists q d e, In q (points c) /\ update d0 q = (d, Ok tt) /\ score tests cases n d = Ok (F e)) -> exists d', select update bounded nm true c tests cases n d0 = (d', Ok tt).
  Proof. intros Hc H (q & d & e & Hq & Ed & Es). destruct (some_feasible (training_error update tests cases n) bounded nm Inv goal c d0 goal_answers HI0 Hc) as (d1 & p & v & H1 & E & Hp & Hv & Hf & _).
    - intros q' Hq'. unfold goal. destruct (update d0 q') as [d2 [[]|e2]] eqn:E2; eauto.
    - exists q, (F e). split; auto. split; [|exact I]. unfold goal. rewrite Ed. auto.
    - unfold select. rewrite E. destruct (Hup d1 p H1) as (_ & H2 & _). unfold goal in Hv. destruct (update d0 p) as [d2 [[]|e2]]; [|injection Hv as <-; destruct Hf].
      rewrite (surjective_pairing (update d1 p)), H2. cbn [snd]. eauto. Qed.

  (* ---- the score ---- *)
  Definition test_ok (d : St) (c : sel_test St) : Prop := exists s, st_predict c d = Ok s /\ st_unstable c s = false.
  Definition case_ok (d : St) (c : sel_case St) (x : fnum) : Prop := exists s, sc_predict c d = Ok s /\ sc_unstable c s = false /\ sc_error c s = Ok x.
  Lemma pass_true (d : St) l : pass_tests d l = Ok true <-> Forall (test_ok d) l.
  Proof. induction l as [|c l IH]; cbn [pass_tests]; [split; auto|]. unfold evaluate. destruct (st_predict c d) as [s|e] eqn:E; cbn [bind].
    - destruct (st_unstable c s) eqn:Eu; cbn [negb].
      + split; [discriminate|]. intros H. inversion H as [|? ? (s' & E1 & E2) _]; subst. congruence.
      + rewrite IH. split; intros H; [constructor; auto; exists s; auto|inversion H; auto].
    - split; [discriminate|]. intros H. inversion H as [|? ? (s' & E1 & E2) _]; subst. congruence. Qed.
  Lemma sum_errors_F (d : St) l : forall x y, sum_errors d l (F x) = Ok (Some (F y)) <-> exists xs, Forall2 (case_ok d) l (map F xs) /\ y = fold_left Rplus xs x.
  Proof. assert (NaNs : forall l e y, ~ (exists x, e = F x) -> sum_errors d l e <> Ok (Some (F y))).
    { clear. induction l as [|c l IH]; intros e y He; cbn [sum_errors]. { intros [= ->]. apply He. eauto. } destruct (sc_predict c d) as [s|]; cbn [bind]; [|discriminate]. destruct (sc_unstable c s); [discriminate|].
      destruct (sc_error c s) as [x|]; cbn [bind]; [|discriminate]. apply IH. unfold fadd. destruct e; [edestruct He; eauto| | |]; intros [? ?]; discriminate. }
    induction l as [|c l IH]; intros x y; cbn [sum_errors].
    - split; [intros [= <-]; exists []; split; [constructor|reflexivity]|]. intros (xs & H & ->). inversion H. destruct xs; [auto|discriminate].
    - destruct (sc_predict c d) as [s|e] eqn:E; cbn [bind]; [destruct (sc_unstable c s) eqn:Eu; [|destruct (sc_error c s) as [z|e] eqn:Ez; cbn [bind]]|].
      + split; [discriminate|]. intros (xs & H & _). inversion H as [|? ? ? ? (s' & E1 & E2 & _) _]; subst. congruence.
      + destruct z as [z| | |]; cbn [fadd].
        { rewrite IH. split; intros (xs & H & ->).
          - exists (z :: xs). split; auto. constructor; auto. exists s. auto.
          - inversion H as [|? ? ? l' (s' & E1 & E2 & E3) H' EQ EQ']; subst. destruct xs as [|z' xs]; [discriminate|]. cbn in EQ'. injection EQ' as -> ->. assert (s' = s) by congruence. subst. assert (z' = z) by congruence. subst. exists xs. auto. }
        all: split; [intros Hx; exfalso; revert Hx; apply NaNs; intros [? ?]; discriminate|]; intros (xs & H & _); inversion H as [|? ? ? l' (s' & E1 & E2 & E3) H' EQ EQ']; subst; destruct xs as [|z' xs]; [discriminate|]; cbn in EQ'; injection EQ' as -> ->; congruence.
      + split; [discriminate|]. intros (xs & H & _). inversion H as [|? ? ? ? (s' & E1 & E2 & E3) _]; subst. congruence.
      + split; [discriminate|]. intros (xs & H & _). inversion H as [|? ? ? ? (s' & E1 & E2 & E3) _]; subst. congruence. Qed.
  Lemma cases_unique (d : St) l a : Forall2 (case_ok d) l a -> forall b, Forall2 (case_ok d) l b -> a = b.
  Proof. intros H. induction H as [|c x l1 l2 (s & E1 & E2 & E3) H IH]; intros b Hb2; inversion Hb2 as [|c2 x2 l3 l4 (s' & F1 & F2 & F3) H2]; auto. f_equal; auto. congruence. Qed.
  Lemma fold_plus xs : forall x, fold_left Rplus xs x = (x + lsum xs)%R.
  Proof. induction xs as [|y xs IH]; intros x; cbn [fold_left]; [change (lsum []) with 0%R; lra|]. rewrite IH. change (lsum (y :: xs)) with (y + lsum xs)%R. lra. Qed.
  Lemma score_F (d : St) e : score tests cases n d = Ok (F e) <-> Forall (test_ok d) tests /\ exists xs, Forall2 (case_ok d) cases (map F xs) /\ e = (lsum xs / INR n)%R.
  Proof. rewrite <- pass_true. unfold score. destruct (pass_tests d tests) as [[]|] eqn:Ep; cbn [bind]; [|split; [discriminate|intros [? _]; discriminate]|split; [discriminate|intros [? _]; discriminate]].
    destruct (sum_errors d cases (F 0)) as [v|er] eqn:E; cbn [bind].
    - destruct v as [v|]; cbn.
      + destruct v as [v| | |]; cbn.
        { apply sum_errors_F in E. destruct E as (xs & H & ->). rewrite fold_plus. split.
          - intros [= <-]. split; auto. exists xs. split; auto. f_equal. lra.
          - intros (_ & ys & Hy & ->). assert (Exy : map F ys = map F xs) by (eapply cases_unique; eauto).
            assert (Hinj : ys = xs). { clear - Exy. revert xs Exy. induction ys as [|y ys IH]; intros [|x xs] E; cbn in E; try discriminate; auto. injection E as -> E. f_equal. auto. } subst. do 2 f_equal. lra. }
        all: split; [discriminate|]; intros (_ & xs & H & ->); assert (Hs : sum_errors d cases (F 0) = Ok (Some (F (fold_left Rplus xs 0%R)))) by (apply sum_errors_F; eauto); congruence.
      + split; [discriminate|]; intros (_ & xs & H & ->); assert (Hs : sum_errors d cases (F 0) = Ok (Some (F (fold_left Rplus xs 0%R)))) by (apply sum_errors_F; eauto); congruence.
    - split; [discriminate|]; intros (_ & xs & H & ->); assert (Hs : sum_errors d cases (F 0) = Ok (Some (F (fold_left Rplus xs 0%R)))) by (apply sum_errors_F; eauto); congruence. Qed.
End Core.

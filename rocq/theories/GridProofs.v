(* GridProofs.v -- proofs about gridsearch. *)
From Coq Require Import Permutation Sorted.
From Verif Require Export GridModel.
#[local] Open Scope R_scope.

Lemma flt_trans a b c : flt a b = true -> flt b c = true -> flt a c = true.
Proof. destruct a, b, c; cbn; try congruence; repeat destruct Rlt_dec; try congruence; lra. Qed.
Lemma flt_keep a b c : flt a c = false -> flt b c = true -> flt a b = false.
Proof. intros H1 H2. destruct (flt a b) eqn:E; auto. assert (K := flt_trans _ _ _ E H2). congruence. Qed.
Lemma flt_PInf v : flt v PInf = true <-> feasible v.
Proof. destruct v; cbn; split; try congruence; try tauto. Qed.
Lemma flt_irrefl v : flt v v = false.
Proof. destruct v; cbn; auto. destruct Rlt_dec; auto. lra. Qed.

(* ---- sorting ---- *)
Lemma insert_perm x l : Permutation (x :: l) (insert x l).
Proof. induction l as [|y l IH]; cbn; auto. destruct (Rle_dec x y); auto. eapply perm_trans; [apply perm_swap|]. constructor. auto. Qed.
Lemma sort_perm l : Permutation l (sort l).
Proof. induction l as [|x l IH]; cbn; auto. eapply perm_trans; [constructor; apply IH|]. apply insert_perm. Qed.
Lemma insert_sorted x l : StronglySorted Rle l -> StronglySorted Rle (insert x l).
Proof.
  induction 1 as [|y l HS IH HF]; cbn; [repeat constructor|]. destruct (Rle_dec x y) as [H|H].
  - constructor; [constructor; auto|]. constructor; auto. eapply Forall_impl; [|exact HF]. cbn. intros; lra.
  - constructor; auto. apply Forall_forall. intros z Hz. apply (Permutation_in z (Permutation_sym (insert_perm x l))) in Hz. destruct Hz as [<-|Hz]; [lra|]. rewrite Forall_forall in HF. auto.
Qed.
Lemma sort_sorted l : StronglySorted Rle (sort l).
Proof. induction l as [|x l IH]; cbn; [constructor|]. apply insert_sorted; auto. Qed.
Lemma sorted_nth l : StronglySorted Rle l -> forall i j, (i <= j)%nat -> (j < length l)%nat -> nth i l 0 <= nth j l 0.
Proof.
  induction 1 as [|x l HS IH HF]; cbn [length]; intros i j Hij Hj; [lia|]. destruct i, j; cbn [nth]; try lia; try lra.
  - rewrite Forall_forall in HF. apply HF, nth_In. lia.
  - apply IH; lia.
Qed.

(* ---- the candidates ---- *)
Definition pts_of (cs : cands) : list param := match cs with Scalars l => map (fun x => PS (F x)) (sort l) | Vectors l => map (fun v => PV (map F v)) l end.
Lemma process_ok c cs : process c = Ok cs -> well_shaped c /\ Permutation (points c) (pts_of cs) /\ pts_of cs <> [] /\
  match cs with Scalars l => points c = map (fun x => PS (F x)) l | Vectors l => points c = map (fun v => PV (map F v)) l end.
Proof.
  assert (HS : forall l, l <> [] -> Permutation (map (fun x => PS (F x)) l) (pts_of (Scalars l)) /\ pts_of (Scalars l) <> []).
  { intros l Hl. cbn. split; [apply Permutation_map, sort_perm|]. intros E. apply map_eq_nil in E. assert (K := Permutation_length (sort_perm l)). rewrite E in K. destruct l; [congruence|discriminate]. }
  destruct c as [x|l|l]; cbn [process]; intros E.
  - injection E as <-. destruct (HS [x]) as [H1 H2]; [discriminate|]. split; [split; [discriminate|exact I]|]. split; auto.
  - destruct l as [|x l]; [discriminate|]. injection E as <-. destruct (HS (x :: l)) as [H1 H2]; [discriminate|]. split; [split; [discriminate|exact I]|]. split; auto.
  - destruct l as [|v l]; [discriminate|]. destruct (forallb _ (v :: l)) eqn:EF; [|discriminate]. cbn [negb] in E. rewrite forallb_forall in EF.
    assert (HL : forall w, In w (v :: l) -> length w = length v) by (intros w Hw; apply Nat.eqb_eq, EF; auto).
    assert (HW : well_shaped (CVecs (v :: l))). { split; [discriminate|]. intros a b Ha Hb. rewrite (HL a Ha), (HL b Hb). auto. }
    split; auto. destruct (Nat.eqb_spec (length v) 1) as [E1|E1]; injection E as <-.
    + assert (EP : points (CVecs (v :: l)) = map (fun x => PS (F x)) (map (fun w => nth 0 w 0) (v :: l))).
      { cbn [points]. rewrite map_map. apply map_ext_in. intros w Hw. specialize (HL w Hw). rewrite E1 in HL. destruct w as [|x [|y w]]; try discriminate. reflexivity. }
      rewrite EP. destruct (HS (map (fun w => nth 0 w 0) (v :: l))) as [H1 H2]; [discriminate|]. auto.
    + assert (EP : points (CVecs (v :: l)) = map (fun v => PV (map F v)) (v :: l)).
      { cbn [points]. apply map_ext_in. intros w Hw. specialize (HL w Hw). destruct w as [|x [|y w]]; auto. cbn in HL. congruence. }
      rewrite EP. cbn. split; [reflexivity|]. split; [discriminate|auto].
Qed.
Lemma process_total c : well_shaped c -> exists cs, process c = Ok cs.
Proof.
  intros [H1 H2]. destruct c as [x|l|l]; cbn [process]; [eauto| |].
  - destruct l; [now destruct H1|eauto].
  - destruct l as [|v l]; [now destruct H1|]. assert (E : forallb (fun w => (length w =? length v)%nat) (v :: l) = true).
    { apply forallb_forall. intros w Hw. apply Nat.eqb_eq. apply H2; auto. now left. }
    rewrite E. cbn [negb]. destruct (_ =? 1)%nat; eauto.
Qed.

Section P.
  Context {St : Type}.
  Variables (func : St -> param -> St * res fnum) (bounded : R -> R -> strat) (nm : list fnum -> strat).

  Definition gs := gridsearch func bounded nm.
  Definition after (only : bool) (cs : cands) (w : nat) (best : fnum) (s1 : St) : St * res param :=
    let winner := nth w (pts_of cs) (PS NaN) in
    if only then (s1, Ok winner)
    else match cs with
         | Scalars l => let '(lo, hi) := search_bounds (sort l) w in report winner best (run func (minimize_scalar bounded (log10 lo) (log10 hi)) s1)
         | Vectors l => report winner best (run func (nm (map log10 (nth w l []))) s1)
         end.
  Lemma gs_unfold only c cs s : process c = Ok cs ->
    gs only c s = match grid func (pts_of cs) 0 PInf None s with
                  | (s1, Err e) => (s1, Err e)
                  | (s1, Ok (best, None)) => (s1, Err RuntimeError)
                  | (s1, Ok (best, Some w)) => after only cs w best s1
                  end.
  Proof. intros E. unfold gs, gridsearch. rewrite E. destruct cs; cbn [pts_of]; reflexivity. Qed.

  Section G.
  Variables (Inv : St -> Prop) (g : param -> res fnum).
  Hypothesis HA : answers Inv func g.

  (* the winner is the first of the least errors below the bound, if there is one *)
  Definition won (l : list param) (best best' : fnum) (j : nat) : Prop :=
    (j < length l)%nat /\ g (nth j l (PS NaN)) = Ok best' /\ flt best' best = true /\
    (forall c v, In c l -> g c = Ok v -> flt v best' = false) /\
    (forall i, (i < j)%nat -> g (nth i l (PS NaN)) <> Ok best').
  Lemma grid_ok l : forall i best w s s' best' w', Inv s -> grid func l i best w s = (s', Ok (best', w')) ->
    Inv s' /\ (forall c, In c l -> exists v, g c = Ok v) /\
    ((best' = best /\ w' = w /\ forall c v, In c l -> g c = Ok v -> flt v best = false) \/ exists j, w' = Some (i + j)%nat /\ won l best best' j).
  Proof.
    induction l as [|c l IH]; cbn [grid]; intros i best w s s' best' w' HI E.
    - injection E as <- <- <-. split; auto. split; [intros c []|]. left. split; auto. split; auto. intros c v [].
    - destruct (HA s c HI) as [HI' Hg]. destruct (func s c) as [s1 r]. cbn [fst snd] in *. subst r. destruct (g c) as [v|e] eqn:Ec; [|discriminate].
      destruct (flt v best) eqn:Ev.
      + destruct (IH _ _ _ _ _ _ _ HI' E) as (H1 & H2 & H3). split; auto. split. { intros c' [<-|Hc]; eauto. } right. destruct H3 as [(-> & -> & H3)|(j & -> & Hj & Hgj & Hlt & Hmin & Hfst)].
        * exists 0%nat. split; [f_equal; lia|]. split; [cbn; lia|]. cbn [nth]. split; auto. split; auto. split; [|intros i' Hi'; lia]. intros c' v' [<-|Hc] Hv'; [|eauto].
          rewrite Ec in Hv'. injection Hv' as <-. apply flt_irrefl.
        * exists (S j). split; [f_equal; lia|]. split; [cbn; lia|]. cbn [nth]. split; auto. split; [eapply flt_trans; eauto|]. split.
          { intros c' v' [<-|Hc] Hv'; [|eauto]. rewrite Ec in Hv'. injection Hv' as <-. destruct (flt v best') eqn:Ex; auto. assert (K := flt_trans _ _ _ Ex Hlt). rewrite flt_irrefl in K. discriminate. }
          { intros [|i'] Hi'; cbn [nth]; [|apply Hfst; lia]. rewrite Ec. intros [= <-]. rewrite flt_irrefl in Hlt. discriminate. }
      + destruct (IH _ _ _ _ _ _ _ HI' E) as (H1 & H2 & H3). split; auto. split. { intros c' [<-|Hc]; eauto. } destruct H3 as [(-> & -> & H3)|(j & -> & Hj & Hgj & Hlt & Hmin & Hfst)].
        * left. split; auto. split; auto. intros c' v' [<-|Hc] Hv'; [congruence|eauto].
        * right. exists (S j). split; [f_equal; lia|]. split; [cbn; lia|]. cbn [nth]. split; auto. split; auto. split.
          { intros c' v' [<-|Hc] Hv'; [|eauto]. rewrite Ec in Hv'. injection Hv' as <-. eapply flt_keep; eauto. }
          { intros [|i'] Hi'; cbn [nth]; [|apply Hfst; lia]. rewrite Ec. intros [= <-]. congruence. }
  Qed.
  Lemma grid_err l : forall i best w s s' e, Inv s -> grid func l i best w s = (s', Err e) -> exists c, In c l /\ g c = Err e.
  Proof.
    induction l as [|c l IH]; cbn [grid]; intros i best w s s' e HI E; [discriminate|]. destruct (HA s c HI) as [HI' Hg]. destruct (func s c) as [s1 r]. cbn [fst snd] in *. subst r.
    destruct (g c) as [v|e'] eqn:Ec; [|injection E as <- <-; exists c; split; auto; now left]. destruct (flt v best); destruct (IH _ _ _ _ _ _ HI' E) as (c' & H1 & H2); exists c'; split; auto; now right.
  Qed.
  (* what an honest optimizer reports was evaluated *)
  Lemma run_ok o : forall log s s' ok x fv, Inv s -> (forall y v, In (y, v) log -> exists u, g (pow10p y) = Ok u /\ v = clip u) -> honest log o ->
    run func o s = (s', Ok (ok, x, fv)) -> Inv s' /\ exists u, g (pow10p x) = Ok u /\ fv = clip u.
  Proof.
    induction o as [ok0 x0 fv0|x0 k IH|e0]; intros log s s' ok x fv HI HL HH E; cbn [run honest] in *.
    - injection E as <- <- <- <-. eauto.
    - destruct (HA s (pow10p x0) HI) as [HI' Hg]. destruct (func s (pow10p x0)) as [s1 r]. cbn [fst snd] in *. subst r. destruct (g (pow10p x0)) as [u|e'] eqn:Eu; [|discriminate].
      apply (IH (clip u) ((x0, clip u) :: log) s1 s' ok x fv HI'); auto. intros y v [[= <- <-]|Hy]; eauto.
    - discriminate.
  Qed.
  Lemma run_inv o : forall s s' r, Inv s -> run func o s = (s', r) -> Inv s'.
  Proof.
    induction o as [ok0 x0 fv0|x0 k IH|e0]; intros s s' r HI E; cbn [run] in *; [injection E as <- <-; auto| |injection E as <- <-; auto].
    destruct (HA s (pow10p x0) HI) as [HI' Hg]. destruct (func s (pow10p x0)) as [s1 r1]. cbn [fst snd] in *. destruct r1; [eauto|]. injection E as <- <-. auto.
  Qed.
  Lemma run_total o : forall s, Inv s -> quiet o -> (forall p, exists v, g p = Ok v) -> exists s' a, run func o s = (s', Ok a).
  Proof.
    induction o as [ok0 x0 fv0|x0 k IH|e0]; intros s HI HQ HG; cbn [run quiet] in *; [eauto| |contradiction].
    destruct (HA s (pow10p x0) HI) as [HI' Hg]. destruct (func s (pow10p x0)) as [s1 r1]. cbn [fst snd] in *. subst r1. destruct (HG (pow10p x0)) as [v ->]. apply (IH (clip v)); auto.
  Qed.
  Lemma clip_good u best : is_maxopt (clip u) = false -> flt best (clip u) = false -> feasible best -> feasible u /\ clip u = u /\ flt best u = false.
  Proof.
    unfold clip. destruct (flt u (F MAXOPTVAL)) eqn:E; intros H1 H2 H3. - split; auto. destruct u; cbn in *; auto; discriminate.
    - cbn in H1. destruct Req_EM_T; congruence.
  Qed.
  Lemma report_ok winner best sr s' p : report (St := St) winner best sr = (s', Ok p) ->
    p = winner \/ exists ok x fv, sr = (s', Ok (ok, x, fv)) /\ ok = true /\ is_maxopt fv = false /\ flt best fv = false /\ p = pow10p x.
  Proof.
    destruct sr as [s [[[ok x] fv]|e]]; cbn; [|discriminate]. destruct ok, (is_maxopt fv) eqn:E1, (flt best fv) eqn:E2; cbn; intros [= <- <-]; auto.
    right. exists true, x, fv. auto.
  Qed.
  Lemma report_inv winner best o s s' r : Inv s -> report winner best (run func o s) = (s', r) -> Inv s'.
  Proof. intros HI E. destruct (run func o s) as [s1 x] eqn:ER. assert (H1 := run_inv _ _ _ _ HI ER). destruct x as [[[ok x] fv]|e]; cbn in E; [destruct (_ || _)|]; injection E as <- _; auto. Qed.

  Lemma after_inv only cs w best s1 s' r : Inv s1 -> after only cs w best s1 = (s', r) -> Inv s'.
  Proof.
    intros HI. unfold after. destruct only; [intros [= <- _]; auto|]. destruct cs as [l|l]; [destruct (search_bounds (sort l) w) as [lo hi]|]; intros E; eapply report_inv; eauto.
  Qed.
  Lemma won_minimal cs best w c0 : won (pts_of cs) PInf best w -> Permutation (points c0) (pts_of cs) -> feasible best /\ In (nth w (pts_of cs) (PS NaN)) (points c0) /\
    forall c, In c (points c0) -> forall v, g c = Ok v -> flt v best = false.
  Proof.
    intros (Hj & Hg & Hf & Hmin & _) HP. split; [apply flt_PInf; auto|]. split. { eapply Permutation_in; [apply Permutation_sym; eauto|]. apply nth_In. auto. }
    intros c Hc v Hv. apply (Hmin c); auto. eapply Permutation_in; eauto.
  Qed.

  Hypotheses (HB : forall a b, honest [] (bounded a b)) (HN : forall x, honest [] (nm x)).
  Lemma minimize_honest lo hi : honest [] (minimize_scalar bounded lo hi).
  Proof. unfold minimize_scalar. destruct lo, hi; cbn; auto. destruct Rlt_dec; cbn; auto. Qed.
  Lemma after_good only cs w best s1 s' p : Inv s1 -> feasible best -> g (nth w (pts_of cs) (PS NaN)) = Ok best -> after only cs w best s1 = (s', Ok p) ->
    exists v, g p = Ok v /\ feasible v /\ flt best v = false.
  Proof.
    intros HI Hf Hg E. assert (H0 : exists v, g (nth w (pts_of cs) (PS NaN)) = Ok v /\ feasible v /\ flt best v = false) by (exists best; auto using flt_irrefl).
    unfold after in E. destruct only; [injection E as <- <-; auto|].
    assert (K : forall o, honest [] o -> report (nth w (pts_of cs) (PS NaN)) best (run func o s1) = (s', Ok p) -> exists v, g p = Ok v /\ feasible v /\ flt best v = false).
    { intros o Ho ER. apply report_ok in ER. destruct ER as [->|(ok & x & fv & ER & _ & H1 & H2 & ->)]; auto.
      destruct (run_ok o [] s1 s' ok x fv HI) as (_ & u & Hu & ->); auto; [intros y v []|]. destruct (clip_good u best H1 H2 Hf) as (K1 & K2 & K3). eauto. }
    destruct cs as [l|l]; [destruct (search_bounds (sort l) w) as [lo hi]|]; [apply (K _ (minimize_honest _ _) E)|apply (K _ (HN _) E)].
  Qed.
  Lemma flt_le_trans v b u : feasible b -> feasible u -> flt v b = false -> flt b u = false -> flt v u = false \/ v = NaN.
  Proof. destruct v, b, u; cbn; auto; try discriminate; try contradiction; repeat destruct Rlt_dec; auto; try discriminate; intros; lra. Qed.
  End G.
End P.

(* ---- the theorems ---- *)
Lemma never_worse {St} (func : St -> param -> St * res fnum) bounded nm Inv g only c s s' p : answers Inv func g -> Inv s ->
  (forall a b, honest [] (bounded a b)) -> (forall x, honest [] (nm x)) ->
  gridsearch func bounded nm only c s = (s', Ok p) ->
  Inv s' /\ exists v, g p = Ok v /\ feasible v /\ forall q, In q (points c) -> exists u, g q = Ok u /\ flt u v = false.
Proof.
  intros HA HI HB HN E. destruct (process c) as [cs|e] eqn:EP; [|unfold gridsearch in E; rewrite EP in E; discriminate].
  destruct (process_ok c cs EP) as (_ & HP & _). change (gs func bounded nm only c s = (s', Ok p)) in E. rewrite (gs_unfold func bounded nm only c cs s EP) in E.
  destruct (grid func (pts_of cs) 0 PInf None s) as [s1 [[best [w|]]|e]] eqn:EG; try discriminate.
  destruct (grid_ok func Inv g HA _ _ _ _ _ _ _ _ HI EG) as (HI1 & HD & [(_ & H & _)|(j & Ew & Hw)]); [discriminate|]. injection Ew as ->. cbn [Nat.add] in *.
  destruct (won_minimal g cs best j c Hw HP) as (Hf & Hin & Hmin). split; [eapply after_inv; eauto|].
  destruct (after_good func bounded nm Inv g HA HB HN only cs j best s1 s' p HI1 Hf (proj1 (proj2 Hw)) E) as (v & H1 & H2 & H3). exists v. split; auto. split; auto.
  intros q Hq. destruct (HD q) as [u Hu]; [eapply Permutation_in; eauto|]. exists u. split; auto. destruct (flt_le_trans u best v Hf H2 (Hmin q Hq u Hu) H3) as [K| ->]; auto.
Qed.

Lemma all_infeasible {St} (func : St -> param -> St * res fnum) bounded nm Inv g only c s : answers Inv func g -> Inv s -> well_shaped c ->
  (forall q, In q (points c) -> exists v, g q = Ok v /\ ~ feasible v) -> exists s', Inv s' /\ gridsearch func bounded nm only c s = (s', Err RuntimeError).
Proof.
  intros HA HI HW H. destruct (process_total c HW) as (cs & EP). destruct (process_ok c cs EP) as (_ & HP & _).
  change (exists s', Inv s' /\ gs func bounded nm only c s = (s', Err RuntimeError)). rewrite (gs_unfold func bounded nm only c cs s EP).
  destruct (grid func (pts_of cs) 0 PInf None s) as [s1 [[best w]|e]] eqn:EG.
  - destruct (grid_ok func Inv g HA _ _ _ _ _ _ _ _ HI EG) as (HI1 & HD & [(_ & -> & _)|(j & Ew & Hj & Hg & Hf & _)]); [eauto|]. exfalso.
    destruct (H (nth j (pts_of cs) (PS NaN))) as (v & Hv & Hn). { eapply Permutation_in; [apply Permutation_sym; eauto|]. apply nth_In; auto. }
    rewrite Hg in Hv. injection Hv as <-. apply Hn, flt_PInf. auto.
  - destruct (grid_err func Inv g HA _ _ _ _ _ _ _ HI EG) as (q & Hq & He). destruct (H q) as (v & Hv & _); [eapply Permutation_in; [apply Permutation_sym; eauto|auto]|]. congruence.
Qed.

Lemma some_feasible {St} (func : St -> param -> St * res fnum) bounded nm Inv g c s : answers Inv func g -> Inv s -> well_shaped c ->
  (forall q, In q (points c) -> exists v, g q = Ok v) -> (exists q v, In q (points c) /\ g q = Ok v /\ feasible v) ->
  exists s' w best, Inv s' /\ gridsearch func bounded nm true c s = (s', Ok w) /\ In w (points c) /\ g w = Ok best /\ feasible best /\
    (forall q v, In q (points c) -> g q = Ok v -> flt v best = false) /\
    (forall x y, w = PS (F x) -> In (PS (F y)) (points c) -> g (PS (F y)) = Ok best -> x <= y) /\
    (forall v j, w = PV v -> nth_error (points c) j = Some w -> (forall i, (i < j)%nat -> nth_error (points c) i <> Some w) ->
       forall i q, (i < j)%nat -> nth_error (points c) i = Some q -> g q <> Ok best).
Proof.
  intros HA HI HW HD (q0 & v0 & Hq0 & Hv0 & Hf0). destruct (process_total c HW) as (cs & EP). destruct (process_ok c cs EP) as (_ & HP & _ & Hform).
  change (gridsearch func bounded nm true c s) with (gs func bounded nm true c s). rewrite (gs_unfold func bounded nm true c cs s EP).
  destruct (grid func (pts_of cs) 0 PInf None s) as [s1 [[best w]|e]] eqn:EG.
  2:{ destruct (grid_err func Inv g HA _ _ _ _ _ _ _ HI EG) as (q & Hq & He). destruct (HD q) as (v & Hv); [eapply Permutation_in; [apply Permutation_sym; eauto|auto]|]. congruence. }
  destruct (grid_ok func Inv g HA _ _ _ _ _ _ _ _ HI EG) as (HI1 & _ & [(-> & -> & H)|(j & -> & Hw)]).
  { exfalso. specialize (H q0 v0 ltac:(eapply Permutation_in; eauto) Hv0). apply flt_PInf in Hf0. congruence. }
  cbn [Nat.add]. destruct (won_minimal g cs best j c Hw HP) as (Hf & Hin & Hmin). exists s1, (nth j (pts_of cs) (PS NaN)), best.
  split; auto. split; [reflexivity|]. split; auto. destruct Hw as (Hj & Hg & _ & _ & Hfst). split; auto. split; auto. split; [intros q v Hq; apply Hmin; auto|]. split.
  - intros x y Ex Hy Hgy. apply (Permutation_in _ HP) in Hy. apply (In_nth _ _ (PS NaN)) in Hy. destruct Hy as (i & Hi & Ey). destruct cs as [l|l].
    + cbn [pts_of] in *. rewrite map_length in *. assert (EX : forall i, (i < length (sort l))%nat -> nth i (map (fun x => PS (F x)) (sort l)) (PS NaN) = PS (F (nth i (sort l) 0))).
      { intros a Ha. rewrite (nth_indep _ _ (PS (F 0))) by (now rewrite map_length). apply (map_nth (fun x => PS (F x))). }
      rewrite EX in Ex, Ey by auto. injection Ex as <-. injection Ey as <-. destruct (Nat.lt_ge_cases i j) as [Hij|Hij].
      * exfalso. apply (Hfst i Hij). rewrite EX by auto. auto.
      * apply sorted_nth; auto using sort_sorted.
    + cbn [pts_of] in *. rewrite map_length in *. assert (K : nth j (map (fun v => PV (map F v)) l) (PV (map F [])) = PS (F x)) by (rewrite <- Ex; apply nth_indep; now rewrite map_length).
      rewrite (map_nth (fun v => PV (map F v))) in K. discriminate.
  - intros v j0 Ev Ej0 Hf0' i q Hi Eq. destruct cs as [l|l].
    + cbn [pts_of] in Ev, Hj. rewrite map_length in Hj. rewrite (nth_indep _ _ (PS (F 0))) in Ev by (now rewrite map_length). rewrite (map_nth (fun x => PS (F x))) in Ev. discriminate.
    + change (pts_of (Vectors l)) with (map (fun v => PV (map F v)) l) in *. rewrite <- Hform in *. assert (Hle : (j0 <= j)%nat).
      { destruct (Nat.le_gt_cases j0 j) as [|Hgt]; auto. exfalso. apply (Hf0' j Hgt). apply nth_error_nth'. auto. }
      intros Hgq. apply (Hfst i ltac:(lia)). apply nth_error_nth with (d := PS NaN) in Eq. rewrite Eq. auto.
Qed.

(* GridFinal.v -- which points gridsearch evaluates, the bracket, stability tests (C44). *)
From Coq Require Import Permutation Sorted.
From Verif Require Export GridProofs.
#[local] Open Scope R_scope.

Lemma ln10 : 0 < ln 10.
Proof. rewrite <- ln_1. apply ln_increasing; lra. Qed.
Lemma pow10_log10 x : 0 < x -> Rpower 10 (ln x / ln 10) = x.
Proof. intros Hx. unfold Rpower. assert (H := ln10). replace (ln x / ln 10 * ln 10) with (ln x) by (field; lra). apply exp_ln; auto. Qed.
Lemma pow10_between a b y : 0 < a -> 0 < b -> ln a / ln 10 <= y <= ln b / ln 10 -> a <= Rpower 10 y <= b.
Proof.
  intros Ha Hb [H1 H2]. assert (HM : forall u v, u <= v -> Rpower 10 u <= Rpower 10 v).
  { intros u v Huv. destruct Huv as [Huv| ->]; [|lra]. left. apply Rpower_lt; lra. }
  split; [rewrite <- (pow10_log10 a) at 1 by auto|rewrite <- (pow10_log10 b) at 1 by auto]; auto.
Qed.
Lemma log10_pos x : 0 < x -> log10 x = F (ln x / ln 10).
Proof. intros H. unfold log10. destruct Rlt_dec; [auto|contradiction]. Qed.
Lemma log10_npos x : x <= 0 -> log10 x = MInf \/ log10 x = NaN.
Proof. intros H. unfold log10. destruct Rlt_dec; [lra|]. destruct Req_EM_T; auto. Qed.
Lemma log10_le a b : 0 < a -> a <= b -> ln a / ln 10 <= ln b / ln 10.
Proof. intros Ha Hab. apply Rmult_le_compat_r; [apply Rlt_le, Rinv_0_lt_compat, ln10|]. destruct Hab as [Hab| ->]; [|lra]. left. apply ln_increasing; auto. Qed.

(* ---- the calls ---- *)
Section Calls.
  Context {St : Type}.
  Variables (func : St -> param -> St * res fnum) (bounded : R -> R -> strat) (nm : list fnum -> strat).

  Lemma logged_app s L p : logged func (s, L) p = let '(s', r) := func s p in ((s', L ++ [p]), r).
  Proof. reflexivity. Qed.
  Lemma grid_calls l : forall i best w s L s' L' r, grid (logged func) l i best w (s, L) = ((s', L'), r) ->
    grid func l i best w s = (s', r) /\ forall a, r = Ok a -> L' = L ++ l.
  Proof.
    induction l as [|c l IH]; cbn [grid]; intros i best w s L s' L' r E.
    - injection E as <- <- <-. split; auto. intros. now rewrite app_nil_r.
    - rewrite logged_app in E. destruct (func s c) as [s1 [v|e]].
      + destruct (flt v best); destruct (IH _ _ _ _ _ _ _ _ E) as [H1 H2]; (split; auto); intros a Ha; rewrite (H2 a Ha), <- app_assoc; reflexivity.
      + injection E as <- <- <-. split; auto. intros a Ha. discriminate.
  Qed.
  Lemma run_calls o : forall s L s' L' r, run (logged func) o (s, L) = ((s', L'), r) -> run func o s = (s', r) /\ exists xs, L' = L ++ map pow10p xs.
  Proof.
    induction o as [ok x fv|x k IH|e]; intros s L s' L' r E; cbn [run] in *; try (injection E as <- <- <-; split; auto; exists []; now rewrite app_nil_r).
    rewrite logged_app in E. destruct (func s (pow10p x)) as [s1 [v|e]].
    - destruct (IH _ _ _ _ _ _ E) as (H1 & xs & ->). split; auto. exists (x :: xs). rewrite <- app_assoc. reflexivity.
    - injection E as <- <- <-. split; auto. exists [x]. reflexivity.
  Qed.
  Lemma run_within o : forall lo hi s L s' L' r, within lo hi o -> run (logged func) o (s, L) = ((s', L'), r) -> exists ys, L' = L ++ map (fun y => PS (F (Rpower 10 y))) ys /\ forall y, In y ys -> lo <= y <= hi.
  Proof.
    induction o as [ok x fv|x k IH|e]; intros lo hi s L s' L' r HW E; cbn [run within] in *; try (injection E as <- <- <-; exists []; rewrite app_nil_r; split; [auto|intros y []]).
    destruct HW as [(y & -> & Hy) HW]. rewrite logged_app in E. cbn [pow10p pow10] in E. destruct (func s (PS (F (Rpower 10 y)))) as [s1 [v|e]].
    - destruct (IH _ lo hi _ _ _ _ _ (HW (clip v)) E) as (ys & -> & Hys). exists (y :: ys). rewrite <- app_assoc. split; [reflexivity|]. intros z [<-|Hz]; auto.
    - injection E as <- <- <-. exists [y]. split; auto. intros z [<-|[]]; auto.
  Qed.
  Lemma run_point o : forall lo hi log s s' ok x fv, within lo hi o -> honest log o -> (forall x v, In (x, v) log -> exists y, x = PS (F y) /\ lo <= y <= hi) ->
    run func o s = (s', Ok (ok, x, fv)) -> exists y, x = PS (F y) /\ lo <= y <= hi.
  Proof.
    induction o as [ok0 x0 fv0|x0 k IH|e]; intros lo hi log s s' ok x fv HW HH HL E; cbn [run within honest] in *; try discriminate.
    - injection E as <- <- <- <-. eauto.
    - destruct HW as [Hx HW]. destruct (func s (pow10p x0)) as [s1 [v|e]]; [|discriminate]. apply (IH (clip v) lo hi ((x0, clip v) :: log) s1 s' ok x fv); auto.
      intros x' v' [[= <- <-]|H]; eauto.
  Qed.
  Lemma report_calls winner best o s L s' L' r : report winner best (run (logged func) o (s, L)) = ((s', L'), r) ->
    report winner best (run func o s) = (s', r) /\ exists t, run (logged func) o (s, L) = ((s', L'), t).
  Proof.
    destruct (run (logged func) o (s, L)) as [[s1 L1] t] eqn:ER. destruct (run_calls _ _ _ _ _ _ ER) as [-> _]. intros E.
    destruct t as [[[ok x] fv]|e]; cbn [report] in *; [destruct (negb _ || _)|]; injection E as <- <- <-; eauto.
  Qed.
  Lemma after_calls only cs w best s L s' L' r : after (logged func) bounded nm only cs w best (s, L) = ((s', L'), r) ->
    after func bounded nm only cs w best s = (s', r) /\ exists xs, L' = L ++ map pow10p xs /\ (only = true -> xs = []).
  Proof.
    unfold after. destruct only; [intros [= <- <- <-]; split; auto; exists []; rewrite app_nil_r; auto|].
    destruct cs as [l|l]; [destruct (search_bounds (sort l) w) as [lo hi]|]; intros E; apply report_calls in E; destruct E as (E1 & t & ER); destruct (run_calls _ _ _ _ _ _ ER) as (_ & xs & ->);
      (split; [auto|]); exists xs; split; auto; discriminate.
  Qed.
End Calls.

(* every candidate is evaluated exactly once, before anything else; numbers in ascending order *)
Lemma evaluates_all {St} (func : St -> param -> St * res fnum) bounded nm only c s s' L p :
  gridsearch (logged func) bounded nm only c (s, []) = ((s', L), Ok p) ->
  gridsearch func bounded nm only c s = (s', Ok p) /\
  exists L1 L2, L = L1 ++ L2 /\ Permutation (points c) L1 /\ (only = true -> L2 = []) /\ (forall q, In q L2 -> exists x, q = pow10p x) /\
    (L1 = points c \/ exists l, L1 = map (fun x => PS (F x)) l /\ StronglySorted Rle l).
Proof.
  intros E. destruct (process c) as [cs|e] eqn:EP; [|unfold gridsearch in E; rewrite EP in E; discriminate].
  destruct (process_ok c cs EP) as (_ & HP & _ & Hform). change (gs (logged func) bounded nm only c (s, []) = ((s', L), Ok p)) in E. change (gridsearch func bounded nm only c s) with (gs func bounded nm only c s).
  rewrite (gs_unfold _ _ _ _ _ cs _ EP) in E. rewrite (gs_unfold _ _ _ _ _ cs _ EP).
  destruct (grid (logged func) (pts_of cs) 0 PInf None (s, [])) as [[s1 L1] [[best [w|]]|e]] eqn:EG; try discriminate.
  destruct (grid_calls _ _ _ _ _ _ _ _ _ _ EG) as [-> HL]. specialize (HL _ eq_refl). cbn [app] in HL. subst L1.
  destruct (after_calls _ _ _ _ _ _ _ _ _ _ _ _ E) as (-> & xs & -> & Ho). split; auto. exists (pts_of cs), (map pow10p xs). split; auto. split; auto.
  split; [intros Ht; rewrite (Ho Ht); auto|]. split. { intros q Hq. apply in_map_iff in Hq. destruct Hq as (x & <- & _). eauto. }
  destruct cs as [l|l]; [right; exists (sort l); split; [auto|apply sort_sorted]|left; now rewrite Hform].
Qed.

(* the numbers searched after the grid lie in the bracket of the winner *)
Lemma numbers_scalars c cs w : process c = Ok cs -> In (PS (F w)) (points c) -> exists l, cs = Scalars l /\ points c = map (fun x => PS (F x)) l.
Proof.
  intros EP Hin. destruct (process_ok c cs EP) as (_ & _ & _ & Hform). destruct cs as [l|l]; [eauto|]. exfalso. rewrite Hform in Hin. apply in_map_iff in Hin. destruct Hin as (v & Hv & _). discriminate.
Qed.
Lemma bounds_bracket c l w : points c = map (fun x => PS (F x)) l -> (forall x, In x l -> 0 < x) -> (w < length (sort l))%nat ->
  let '(lo, hi) := search_bounds (sort l) w in let c0 := nth w (sort l) 0 in
  0 < lo /\ lo <= c0 <= hi /\ forall x, lo <= x <= hi -> in_bracket c c0 (PS (F x)).
Proof.
  intros EP Hpos Hw. assert (HS := sort_sorted l). assert (Hp : forall i, (i < length (sort l))%nat -> 0 < nth i (sort l) 0).
  { intros i Hi. apply Hpos. eapply Permutation_in; [apply Permutation_sym, sort_perm|]. apply nth_In; auto. }
  assert (HI : forall y, In (PS (F y)) (points c) <-> exists i, (i < length (sort l))%nat /\ nth i (sort l) 0 = y).
  { intros y. rewrite EP, in_map_iff. split.
    - intros (x & [= ->] & Hx). apply (Permutation_in _ (sort_perm l)) in Hx. apply (In_nth _ _ 0) in Hx. auto.
    - intros (i & Hi & <-). exists (nth i (sort l) 0). split; auto. eapply Permutation_in; [apply Permutation_sym, sort_perm|]. apply nth_In; auto. }
  assert (Hc := Hp w Hw). set (c0 := nth w (sort l) 0) in *. unfold search_bounds. fold c0.
  assert (LO : forall i, (i < w)%nat -> (forall i', (i' < length (sort l))%nat -> nth i' (sort l) 0 < c0 -> (i' < w)%nat)).
  { intros _ _ i' Hi' Hlt. destruct (Nat.lt_ge_cases i' w) as [|H]; auto. assert (K := sorted_nth _ HS w i' H Hi'). unfold c0 in Hlt. lra. }
  assert (B : forall i', (i' < length (sort l))%nat -> nth i' (sort l) 0 < c0 -> (i' < w)%nat).
  { intros i' Hi' Hlt. destruct (Nat.lt_ge_cases i' w) as [|H]; auto. assert (K := sorted_nth _ HS w i' H Hi'). unfold c0 in Hlt. lra. }
  assert (A : forall i', (i' < length (sort l))%nat -> c0 < nth i' (sort l) 0 -> (w < i')%nat).
  { intros i' Hi' Hlt. destruct (Nat.lt_ge_cases w i') as [|H]; auto. assert (K := sorted_nth _ HS i' w H Hw). unfold c0 in Hlt. lra. }
  assert (N : forall lo hi, lo <= c0 -> c0 <= hi -> (forall i', (i' < w)%nat -> nth i' (sort l) 0 <= lo) -> (forall i', (w < i' < length (sort l))%nat -> hi <= nth i' (sort l) 0) ->
    (c0 / 100 <= lo \/ (0 < w)%nat /\ lo = nth (w - 1) (sort l) 0) -> (hi <= 100 * c0 \/ (w + 1 < length (sort l))%nat /\ hi = nth (w + 1) (sort l) 0) ->
    forall x, lo <= x <= hi -> in_bracket c c0 (PS (F x))).
  { intros lo hi H1 H2 H3 H4 H5 H6 x Hx. exists x. split; auto. split; [|split; [|split]].
    - intros y Hy Hlt. apply HI in Hy. destruct Hy as (i & Hi & <-). specialize (H3 i (B i Hi Hlt)). lra.
    - intros y Hy Hlt. apply HI in Hy. destruct Hy as (i & Hi & <-). specialize (H4 i (conj (A i Hi Hlt) Hi)). lra.
    - intros Hall. destruct H5 as [H5|(Hw0 & ->)]; [lra|]. specialize (Hall (nth (w - 1) (sort l) 0)). rewrite HI in Hall. specialize (Hall ltac:(exists (w - 1)%nat; split; [lia|auto])). lra.
    - intros Hall. destruct H6 as [H6|(Hw0 & ->)]; [lra|]. specialize (Hall (nth (w + 1) (sort l) 0)). rewrite HI in Hall. specialize (Hall ltac:(exists (w + 1)%nat; split; [lia|auto])). lra. }
  assert (S1 := sorted_nth _ HS). destruct (Nat.eqb_spec (length (sort l)) 1) as [E1|E1]; [|destruct (Nat.eqb_spec w 0) as [E2|E2]; [|destruct (Nat.eqb_spec w (length (sort l) - 1)) as [E3|E3]]].
  - split; [lra|]. split; [lra|]. apply N; try lra; [intros; lia|intros; lia].
  - assert (K : c0 <= nth 1 (sort l) 0) by (apply S1; lia). split; [lra|]. split; [lra|]. apply N; try lra; [intros; lia|intros; apply S1; lia|]. right. split; [lia|]. subst w. auto.
  - assert (EL : (length (sort l) - 2 = w - 1)%nat) by lia. rewrite EL. assert (K : nth (w - 1) (sort l) 0 <= c0) by (apply S1; lia). assert (K2 := Hp (w - 1)%nat ltac:(lia)).
    split; [lra|]. split; [lra|]. apply N; try lra; [intros; apply S1; lia|intros; lia|]. right. split; [lia|auto].
  - assert (K : nth (w - 1) (sort l) 0 <= c0) by (apply S1; lia). assert (K1 : c0 <= nth (w + 1) (sort l) 0) by (apply S1; lia). assert (K2 := Hp (w - 1)%nat ltac:(lia)).
    split; [lra|]. split; [lra|]. apply N; try lra; [intros; apply S1; lia|intros; apply S1; lia|right; split; [lia|auto]|right; split; [lia|auto]].
Qed.
Lemma search_in_bracket {St} (func : St -> param -> St * res fnum) bounded nm c s s1 w s2 L p :
  (forall a b, a <= b -> within a b (bounded a b)) -> (forall a b, honest [] (bounded a b)) ->
  (forall q, In q (points c) -> exists x, q = PS (F x) /\ 0 < x) ->
  gridsearch func bounded nm true c s = (s1, Ok (PS (F w))) ->
  gridsearch (logged func) bounded nm false c (s, []) = ((s2, L), Ok p) ->
  in_bracket c w p /\ exists L1 L2, L = L1 ++ L2 /\ Permutation (points c) L1 /\ forall q, In q L2 -> in_bracket c w q.
Proof.
  intros HW HH Hnum E1 E2. destruct (process c) as [cs|e] eqn:EP; [|unfold gridsearch in E1; rewrite EP in E1; discriminate].
  destruct (process_ok c cs EP) as (_ & HP & _ & Hform).
  change (gs func bounded nm true c s = (s1, Ok (PS (F w)))) in E1. change (gs (logged func) bounded nm false c (s, []) = ((s2, L), Ok p)) in E2.
  rewrite (gs_unfold _ _ _ _ _ cs _ EP) in E1. rewrite (gs_unfold _ _ _ _ _ cs _ EP) in E2.
  destruct (grid (logged func) (pts_of cs) 0 PInf None (s, [])) as [[s3 L1] [[best [j|]]|e]] eqn:EG; try discriminate.
  destruct (grid_calls _ _ _ _ _ _ _ _ _ _ EG) as [EG' HL]. specialize (HL _ eq_refl). cbn [app] in HL. subst L1. rewrite EG' in E1. cbn [after] in E1. unfold after in E1. injection E1 as <- Ew.
  assert (Hj : (j < length (pts_of cs))%nat). { destruct (Nat.lt_ge_cases j (length (pts_of cs))) as [|H]; auto. rewrite nth_overflow in Ew by auto. discriminate. }
  destruct cs as [l|l]; [|exfalso; cbn [pts_of] in Ew, Hj; rewrite map_length in Hj; rewrite (nth_indep _ _ (PV (map F []))) in Ew by (now rewrite map_length); rewrite (map_nth (fun v => PV (map F v))) in Ew; discriminate].
  cbn [pts_of] in *. rewrite map_length in Hj. assert (Ew2 := Ew). rewrite (nth_indep _ _ (PS (F 0))) in Ew2 by (now rewrite map_length). rewrite (map_nth (fun x => PS (F x))) in Ew2. injection Ew2 as Ew2.
  assert (Hpos : forall x, In x l -> 0 < x). { intros x Hx. destruct (Hnum (PS (F x))) as (x' & [= <-] & H); auto. rewrite Hform. apply in_map_iff. eauto. }
  assert (HBr := bounds_bracket c l j Hform Hpos Hj). unfold after in E2. cbn [pts_of] in E2. rewrite Ew in E2. destruct (search_bounds (sort l) j) as [lo hi] eqn:EB. cbv zeta in HBr. rewrite Ew2 in HBr.
  destruct HBr as (H0 & Hlh & Hin). assert (Hhi : 0 < hi) by lra.
  rewrite (log10_pos lo), (log10_pos hi) in E2 by auto. assert (Hle := log10_le lo hi H0 ltac:(lra)). cbn [minimize_scalar] in E2.
  destruct (Rlt_dec (ln hi / ln 10) (ln lo / ln 10)); [lra|].
  assert (HIn : forall y, ln lo / ln 10 <= y <= ln hi / ln 10 -> in_bracket c w (PS (F (Rpower 10 y)))) by (intros y Hy; apply Hin, pow10_between; auto).
  assert (E3 := E2). apply report_calls in E3. destruct E3 as (_ & t & ER). destruct (run_within _ _ _ _ _ _ _ _ _ (HW _ _ Hle) ER) as (ys & EL & Hys). split.
  - apply report_ok in E2. destruct E2 as [->|(ok & x & fv & E2 & _ & _ & _ & ->)].
    + apply Hin. lra.
    + assert (E4 := E2). apply run_calls in E4. destruct E4 as [E4 _]. destruct (run_point _ _ _ _ [] _ _ _ _ _ (HW _ _ Hle) (HH _ _) ltac:(intros ? ? []) E4) as (y & -> & Hy). cbn [pow10p pow10]. auto.
  - exists (map (fun x => PS (F x)) (sort l)), (map (fun y => PS (F (Rpower 10 y))) ys). split; auto. split; auto. intros q Hq. apply in_map_iff in Hq. destruct Hq as (y & <- & Hy). auto.
Qed.

(* with positive numbers, or with vectors, the search always ends with a result *)
Lemma search_total {St} (func : St -> param -> St * res fnum) bounded nm Inv g only c s : answers Inv func g -> Inv s -> well_shaped c ->
  (forall a b, quiet (bounded a b)) -> (forall x, quiet (nm x)) -> (forall q, exists v, g q = Ok v) ->
  (forall x, In (PS (F x)) (points c) -> 0 < x) -> (exists q v, In q (points c) /\ g q = Ok v /\ feasible v) ->
  exists s' p, gridsearch func bounded nm only c s = (s', Ok p).
Proof.
  intros HA HI HW HQ HN HG Hpos (q0 & v0 & Hq0 & Hv0 & Hf0). destruct (process_total c HW) as (cs & EP). destruct (process_ok c cs EP) as (_ & HP & _ & Hform).
  change (exists s' p, gs func bounded nm only c s = (s', Ok p)). rewrite (gs_unfold func bounded nm only c cs s EP).
  destruct (grid func (pts_of cs) 0 PInf None s) as [s1 [[best w]|e]] eqn:EG.
  2:{ destruct (grid_err func Inv g HA _ _ _ _ _ _ _ HI EG) as (q & Hq & He). destruct (HG q). congruence. }
  destruct (grid_ok func Inv g HA _ _ _ _ _ _ _ _ HI EG) as (HI1 & _ & [(-> & -> & H)|(j & -> & Hw)]).
  { exfalso. specialize (H q0 v0 ltac:(eapply Permutation_in; eauto) Hv0). apply flt_PInf in Hf0. congruence. }
  cbn [Nat.add]. unfold after. destruct only; [eauto|].
  assert (K : forall o, quiet o -> exists s' p, report (nth j (pts_of cs) (PS NaN)) best (run func o s1) = (s', Ok p)).
  { intros o Ho. destruct (run_total func Inv g HA o s1 HI1 Ho HG) as (s' & [[ok x] fv] & ->). cbn [report]. destruct (_ || _); eauto. }
  destruct cs as [l|l]; [|apply K, HN]. destruct (search_bounds (sort l) j) as [lo hi] eqn:EB. apply K. destruct Hw as (Hj & _). cbn [pts_of] in Hj. rewrite map_length in Hj.
  assert (HBr := bounds_bracket c l j Hform). rewrite EB in HBr. destruct HBr as (H0 & Hlh & _); [|auto|].
  { intros x Hx. apply Hpos. rewrite Hform. apply in_map_iff. eauto. }
  rewrite (log10_pos lo), (log10_pos hi) by lra. unfold minimize_scalar. destruct Rlt_dec; [|apply HQ]. exfalso. assert (K2 := log10_le lo hi H0 ltac:(lra)). lra.
Qed.

(* a winner that is not positive, or whose lower neighbour is not: ValueError instead of a result *)
Lemma zero_candidate : exists (func : unit -> param -> unit * res fnum) bounded nm l s,
  (forall a b, honest [] (bounded a b)) /\ (forall x, honest [] (nm x)) /\ (forall q s, exists v, snd (func s q) = Ok (F v)) /\
  (forall x, In x l -> 0 <= x) /\ gridsearch func bounded nm false (CNums l) s = (tt, Err ValueError).
Proof.
  exists (fun s p => (s, Ok (match p with PS (F x) => F ((x - 1) * (x - 1)) | _ => F 5 end))), (fun a _ => Ask (PS (F a)) (fun v => Stop true (PS (F a)) v)), (fun x => Ask (PV x) (fun v => Stop true (PV x) v)), [0; 1], tt.
  split; [cbn; auto|]. split; [cbn; auto|]. split. { intros [[x| | |]|v] s; cbn; eauto. } split; [cbn; intros x [<-|[<-|[]]]; lra|].
  unfold gridsearch. cbn [process]. unfold sort, insert. destruct (Rle_dec 0 1); [|lra]. cbn [map grid]. cbn [flt].
  destruct (Rlt_dec ((1 - 1) * (1 - 1)) ((0 - 1) * (0 - 1))) as [_|n]; [|exfalso; apply n; lra]. cbn. unfold log10. destruct (Rlt_dec 0 0); [lra|]. destruct (Req_EM_T 0 0); [|congruence]. reflexivity.
Qed.

(* ---- stability tests ---- *)
Lemma existsb_false {A} (f : A -> bool) l : existsb f l = false <-> forall x, In x l -> f x = false.
Proof.
  split. - intros H x Hx. destruct (f x) eqn:E; auto. assert (K : existsb f l = true) by (apply existsb_exists; eauto). congruence.
  - intros H. destruct (existsb f l) eqn:E; auto. apply existsb_exists in E. destruct E as (x & Hx & Hf). rewrite (H x Hx) in Hf. discriminate.
Qed.
Lemma discrete_stable ic bound Q k : length Q = length ic -> Forall (fun row => length row = k) Q ->
  (discrete_unstable ic bound Q = false <->
   forall i j, (i < length ic)%nat -> (j < k)%nat -> exists q, fentry Q i j = F q /\ forall b, bound = Some b -> Rabs (q - vget ic i) <= b).
Proof.
  intros HL HF. rewrite Forall_forall in HF. unfold discrete_unstable. split.
  - intros H i j Hi Hj. destruct (existsb (existsb not_finite) Q) eqn:E1; [discriminate|]. rewrite existsb_false in E1. assert (Hrow : In (nth i Q []) Q) by (apply nth_In; lia).
    specialize (E1 _ Hrow). rewrite existsb_false in E1. assert (Hent : In (fentry Q i j) (nth i Q [])) by (apply nth_In; rewrite (HF _ Hrow); auto).
    assert (E2 := E1 _ Hent). destruct (fentry Q i j) as [q| | |] eqn:Eq; try discriminate. exists q. split; auto. intros b ->.
    rewrite existsb_false in H. assert (Hc : In (vget ic i, nth i Q []) (combine ic Q)). { unfold vget. rewrite <- combine_nth by auto. apply nth_In. rewrite combine_length. lia. }
    specialize (H _ Hc). cbn [fst snd] in H. rewrite existsb_false in H. specialize (H _ Hent). cbn in H. destruct Rlt_dec; [discriminate|lra].
  - intros H. assert (HE : forall row x, In row Q -> In x row -> exists i j, (i < length ic)%nat /\ (j < k)%nat /\ nth i Q [] = row /\ fentry Q i j = x).
    { intros row x Hr Hx. apply (In_nth _ _ []) in Hr. destruct Hr as (i & Hi & <-). apply (In_nth _ _ NaN) in Hx. destruct Hx as (j & Hj & <-). exists i, j. split; [lia|].
      rewrite (HF (nth i Q [])) in Hj by (apply nth_In; auto). auto. }
    assert (E1 : existsb (existsb not_finite) Q = false).
    { apply existsb_false. intros row Hr. apply existsb_false. intros x Hx. destruct (HE _ _ Hr Hx) as (i & j & Hi & Hj & _ & Ex). destruct (H i j Hi Hj) as (q & Eq & _). rewrite <- Ex, Eq. reflexivity. }
    rewrite E1. destruct bound as [b|]; auto. apply existsb_false. intros [c row] Hc. cbn [fst snd]. apply existsb_false. intros x Hx.
    apply (In_nth _ _ (0, [])) in Hc. destruct Hc as (i & Hi & Ec). rewrite combine_length in Hi. rewrite combine_nth in Ec by auto. injection Ec as Ec Er.
    assert (Hr : In row Q) by (rewrite <- Er; apply nth_In; lia). apply (In_nth _ _ NaN) in Hx. destruct Hx as (j & Hj & Ex). rewrite (HF row Hr) in Hj. destruct (H i j ltac:(lia) Hj) as (q & Eq & Hb).
    unfold fentry in Eq. rewrite Er, Ex in Eq. subst x. rewrite Eq. cbn. specialize (Hb b eq_refl). unfold vget in Hb. rewrite Ec in Hb. destruct Rlt_dec; [lra|auto].
Qed.
Lemma continuous_stable nt ic bound Q k : (0 < length ic)%nat -> length Q = length ic -> Forall (fun row => length row = k) Q ->
  (continuous_unstable nt ic bound Q = false <->
   k = nt /\ forall i j, (i < length ic)%nat -> (j < k)%nat -> exists q, fentry Q i j = F q /\ forall b, bound = Some b -> Rabs (q - vget ic i) <= b).
Proof.
  intros H0 HL HF. assert (Eh : length (hd [] Q) = k). { destruct Q as [|row Q]; [cbn in HL; lia|]. inversion HF; auto. }
  unfold continuous_unstable. rewrite Eh. destruct (Nat.eqb_spec k nt) as [E|E]; cbn [negb].
  - rewrite (discrete_stable ic bound Q k HL HF). tauto.
  - split; [discriminate|intros [K _]; contradiction].
Qed.

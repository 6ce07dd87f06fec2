(* Prop_Grid.v -- property C44: regularization search. *)
From Coq Require Import Permutation Sorted Lia Lra List.
From Verif Require Import GridFinal.
#[local] Open Scope R_scope.

(* C44: what gridsearch returns is feasible and no candidate has a smaller error.  func may have memory, as long as its answers do not depend on it; the optimizers are arbitrary, as long as they report a point they evaluated. *)
Theorem C44_never_worse :
  forall {St} (func : St -> param -> St * res fnum) bounded nm Inv g only c s s' p,
  answers Inv func g -> Inv s ->
  (forall a b, honest [] (bounded a b)) -> (forall x, honest [] (nm x)) ->
  gridsearch func bounded nm only c s = (s', Ok p) ->
  Inv s' /\ exists v, g p = Ok v /\ feasible v /\ forall q, In q (points c) -> exists u, g q = Ok u /\ flt u v = false.
Proof. exact @never_worse. Qed.
Print Assumptions C44_never_worse.

(* C44: if gridsearch returns, every candidate was evaluated exactly once, before anything else; with gridsearch_only nothing else is evaluated.  Nothing is assumed of func. *)
Theorem C44_evaluates_all :
  forall {St} (func : St -> param -> St * res fnum) bounded nm only c s s' L p,
  gridsearch (logged func) bounded nm only c (s, []) = ((s', L), Ok p) ->
  gridsearch func bounded nm only c s = (s', Ok p) /\
  exists L1 L2, L = L1 ++ L2 /\ Permutation (points c) L1 /\ (only = true -> L2 = []) /\ (forall q, In q L2 -> exists x, q = pow10p x) /\
    (L1 = points c \/ exists l, L1 = map (fun x => PS (F x)) l /\ StronglySorted Rle l).
Proof. exact @evaluates_all. Qed.
Print Assumptions C44_evaluates_all.

(* C44: with gridsearch_only and some feasible candidate, gridsearch returns a candidate with the least error; among several it is the least number, or the first vector. *)
Theorem C44_grid_winner :
  forall {St} (func : St -> param -> St * res fnum) bounded nm Inv g c s,
  answers Inv func g -> Inv s -> well_shaped c ->
  (forall q, In q (points c) -> exists v, g q = Ok v) -> (exists q v, In q (points c) /\ g q = Ok v /\ feasible v) ->
  exists s' w best, Inv s' /\ gridsearch func bounded nm true c s = (s', Ok w) /\ In w (points c) /\ g w = Ok best /\ feasible best /\
    (forall q v, In q (points c) -> g q = Ok v -> flt v best = false) /\
    (forall x y, w = PS (F x) -> In (PS (F y)) (points c) -> g (PS (F y)) = Ok best -> x <= y) /\
    (forall v j, w = PV v -> nth_error (points c) j = Some w -> (forall i, (i < j)%nat -> nth_error (points c) i <> Some w) ->
       forall i q, (i < j)%nat -> nth_error (points c) i = Some q -> g q <> Ok best).
Proof. exact @some_feasible. Qed.
Print Assumptions C44_grid_winner.

(* C44: if every candidate is infeasible (inf or nan), gridsearch raises RuntimeError. *)
Theorem C44_all_infeasible :
  forall {St} (func : St -> param -> St * res fnum) bounded nm Inv g only c s,
  answers Inv func g -> Inv s -> well_shaped c ->
  (forall q, In q (points c) -> exists v, g q = Ok v /\ ~ feasible v) -> exists s', Inv s' /\ gridsearch func bounded nm only c s = (s', Err RuntimeError).
Proof. exact @all_infeasible. Qed.
Print Assumptions C44_all_infeasible.

(* C44: if some candidate is feasible and numbers are positive, gridsearch returns (for optimizers that do not raise). *)
Theorem C44_succeeds :
  forall {St} (func : St -> param -> St * res fnum) bounded nm Inv g only c s,
  answers Inv func g -> Inv s -> well_shaped c ->
  (forall a b, quiet (bounded a b)) -> (forall x, quiet (nm x)) -> (forall q, exists v, g q = Ok v) ->
  (forall x, In (PS (F x)) (points c) -> 0 < x) -> (exists q v, In q (points c) /\ g q = Ok v /\ feasible v) ->
  exists s' p, gridsearch func bounded nm only c s = (s', Ok p).
Proof. exact @search_total. Qed.
Print Assumptions C44_succeeds.

(* C44: for positive numbers, the result and everything evaluated after the grid lie between the neighbours of the grid winner, or within a factor of 100 where it has none. *)
Theorem C44_bracket :
  forall {St} (func : St -> param -> St * res fnum) bounded nm c s s1 w s2 L p,
  (forall a b, a <= b -> within a b (bounded a b)) -> (forall a b, honest [] (bounded a b)) ->
  (forall q, In q (points c) -> exists x, q = PS (F x) /\ 0 < x) ->
  gridsearch func bounded nm true c s = (s1, Ok (PS (F w))) ->
  gridsearch (logged func) bounded nm false c (s, []) = ((s2, L), Ok p) ->
  in_bracket c w p /\ exists L1 L2, L = L1 ++ L2 /\ Permutation (points c) L1 /\ forall q, In q L2 -> in_bracket c w q.
Proof. exact @search_in_bracket. Qed.
Print Assumptions C44_bracket.

(* C44: DiscreteRegTest accepts a solution exactly if it is finite and stays within the bound around the initial condition. *)
Theorem C44_discrete_stability :
  forall ic bound Q k,
  length Q = length ic -> Forall (fun row => length row = k) Q ->
  (discrete_unstable ic bound Q = false <->
   forall i j, (i < length ic)%nat -> (j < k)%nat -> exists q, fentry Q i j = F q /\ forall b, bound = Some b -> Rabs (q - vget ic i) <= b).
Proof. exact discrete_stable. Qed.
Print Assumptions C44_discrete_stability.

(* C44: ContinuousRegTest accepts a solution exactly if it moreover has one column per time. *)
Theorem C44_continuous_stability :
  forall nt ic bound Q k,
  (0 < length ic)%nat -> length Q = length ic -> Forall (fun row => length row = k) Q ->
  (continuous_unstable nt ic bound Q = false <->
   k = nt /\ forall i j, (i < length ic)%nat -> (j < k)%nat -> exists q, fentry Q i j = F q /\ forall b, bound = Some b -> Rabs (q - vget ic i) <= b).
Proof. exact continuous_stable. Qed.
Print Assumptions C44_continuous_stability.

(* C44, false for the candidate 0 (no regularization): although all candidates are feasible, gridsearch raises ValueError. *)
Theorem C44_zero_refuted :
  exists (func : unit -> param -> unit * res fnum) bounded nm l s,
  (forall a b, honest [] (bounded a b)) /\ (forall x, honest [] (nm x)) /\ (forall q s, exists v, snd (func s q) = Ok (F v)) /\
  (forall x, In x l -> 0 <= x) /\ gridsearch func bounded nm false (CNums l) s = (tt, Err ValueError).
Proof. exact zero_candidate. Qed.
Print Assumptions C44_zero_refuted.

(* the hypotheses are met: the function (x - 2)^2 with the candidates 10, 1, 3, and an optimizer that asks for the middle *)
Definition f2 (p : param) : res fnum := Ok (match p with PS (F x) => F ((x - 2) * (x - 2)) | _ => F 0 end).
Definition func2 (s : unit) (p : param) : unit * res fnum := (s, f2 p).
Definition mid (a b : R) : strat := Ask (PS (F ((a + b) / 2))) (fun v => Stop true (PS (F ((a + b) / 2))) v).
Definition stay (x : list fnum) : strat := Ask (PV x) (fun v => Stop true (PV x) v).
Example C44_example : answers (fun _ => True) func2 f2 /\ (forall a b, honest [] (mid a b)) /\ (forall x, honest [] (stay x)) /\ (forall a b, a <= b -> within a b (mid a b)) /\
  (forall a b, quiet (mid a b)) /\ well_shaped (CNums [10; 1; 3]) /\ (forall q, In q (points (CNums [10; 1; 3])) -> exists x, q = PS (F x) /\ 0 < x) /\
  (exists q v, In q (points (CNums [10; 1; 3])) /\ f2 q = Ok v /\ feasible v) /\ exists s p, gridsearch func2 mid stay false (CNums [10; 1; 3]) tt = (s, Ok p).
Proof.
  assert (H1 : answers (fun _ => True) func2 f2) by (split; auto). assert (H2 : forall a b, quiet (mid a b)) by (cbn; auto). assert (H3 : well_shaped (CNums [10; 1; 3])) by (split; [discriminate|exact I]).
  assert (H4 : forall q, In q (points (CNums [10; 1; 3])) -> exists x, q = PS (F x) /\ 0 < x) by (intros q [<-|[<-|[<-|[]]]]; eexists; (split; [reflexivity|lra])).
  assert (H5 : exists q v, In q (points (CNums [10; 1; 3])) /\ f2 q = Ok v /\ feasible v) by (exists (PS (F 10)); eexists; split; [left; auto|split; [reflexivity|exact I]]).
  split; auto. split; [cbn; auto|]. split; [cbn; auto|]. split. { intros a b Hab. cbn. split; auto. exists ((a + b) / 2). split; auto. lra. }
  split; auto. split; auto. split; auto. split; auto.
  apply (search_total func2 mid stay (fun _ => True) f2 false (CNums [10; 1; 3]) tt); auto; [cbn; auto|intros q; eexists; reflexivity|].
  intros x Hx. destruct (H4 _ Hx) as (y & [= <-] & Hy). auto.
Qed.
Example C44_infeasible_example : answers (fun _ => True) (fun (s : unit) _ => (s, Ok PInf)) (fun _ => Ok PInf) /\ ~ feasible PInf /\ ~ feasible NaN.
Proof. split; [split; auto|]. split; cbn; auto. Qed.
Example C44_stability_example : discrete_unstable [1; 2] (Some 3) [[F 1; F 4]; [F 2; F 0]] = false /\ continuous_unstable 2 [1; 2] (Some 1) [[F 1; F 4]; [F 2; F 0]] = true.
Proof.
  split.
  - apply (discrete_stable [1; 2] (Some 3) [[F 1; F 4]; [F 2; F 0]] 2); [reflexivity|repeat constructor|]. intros i j Hi Hj. cbn in Hi.
    destruct i as [|[|i]]; [| |lia]; (destruct j as [|[|j]]; [| |lia]); cbn; (eexists; split; [reflexivity|]); intros b [= <-]; unfold Rabs; destruct Rcase_abs; lra.
  - destruct (continuous_unstable 2 [1; 2] (Some 1) [[F 1; F 4]; [F 2; F 0]]) eqn:E; auto. exfalso.
    apply (continuous_stable 2 [1; 2] (Some 1) [[F 1; F 4]; [F 2; F 0]] 2) in E; [|cbn; lia|reflexivity|repeat constructor]. destruct E as [_ E].
    destruct (E 0%nat 1%nat) as (q & [= <-] & Hb); [cbn; lia|lia|]. specialize (Hb 1 eq_refl). cbn in Hb. unfold Rabs in Hb. destruct Rcase_abs; lra.
Qed.

(* SpecGrid.v -- vocabulary for property C44 (regularization search). *)
From Coq Require Import Permutation Sorted.
From Verif Require Export SpecLift.
#[local] Open Scope R_scope.

(* what the function to be minimised is called with: a number or a vector *)
Inductive param := PS (x : fnum) | PV (v : list fnum).
(* what the caller passes as candidates: one number, a sequence of numbers, or a sequence of vectors *)
Inductive cand_arg := CNum (x : R) | CNums (l : vec) | CVecs (l : list vec).
(* a < b for floating-point numbers; comparisons with nan are false *)
Definition flt (a b : fnum) : bool :=
  match a, b with
  | F x, F y => if Rlt_dec x y then true else false
  | F _, PInf => true | MInf, F _ => true | MInf, PInf => true
  | _, _ => false
  end.
(* an error is feasible if it is neither inf nor nan *)
Definition feasible (v : fnum) : Prop := match v with F _ | MInf => True | _ => False end.

(* An optimizer: it asks for the value at a point and goes on depending on the answer, or stops, reporting whether it
   succeeded, the point it found and the value there, or raises.  Every run is finite. *)
Inductive strat :=
| Stop (success : bool) (x : param) (fv : fnum)
| Ask (x : param) (k : fnum -> strat)
| Raise (e : err).
(* what it reports is a point it asked for, with the answer it got *)
Fixpoint honest (log : list (param * fnum)) (s : strat) : Prop :=
  match s with Stop _ x fv => In (x, fv) log | Ask x k => forall v, honest ((x, v) :: log) (k v) | Raise _ => True end.
(* all its questions are numbers between lo and hi *)
Fixpoint within (lo hi : R) (s : strat) : Prop :=
  match s with Stop _ _ _ => True | Ask x k => (exists y, x = PS (F y) /\ lo <= y <= hi) /\ forall v, within lo hi (k v) | Raise _ => True end.
(* it never raises of its own accord *)
Fixpoint quiet (s : strat) : Prop := match s with Stop _ _ _ => True | Ask _ k => forall v, quiet (k v) | Raise _ => False end.

(* the points the candidates stand for, in the order given *)
Definition points (c : cand_arg) : list param :=
  match c with
  | CNum x => [PS (F x)]
  | CNums l => map (fun x => PS (F x)) l
  | CVecs l => map (fun v => match v with [x] => PS (F x) | _ => PV (map F v) end) l
  end.
(* a function with memory (func s p is the new memory and the value or exception) that always answers g p *)
Definition answers {St} (Inv : St -> Prop) (func : St -> param -> St * res fnum) (g : param -> res fnum) : Prop :=
  forall s p, Inv s -> Inv (fst (func s p)) /\ snd (func s p) = g p.
(* the same function, writing down what it is called with *)
Definition logged {St} (func : St -> param -> St * res fnum) (s : St * list param) (p : param) : (St * list param) * res fnum :=
  let '(s', r) := func (fst s) p in ((s', snd s ++ [p]), r).
(* q is a number between the neighbours of w among the numbers c; where w has no neighbour, within a factor of 100 of w *)
Definition in_bracket (c : cand_arg) (w : R) (q : param) : Prop :=
  exists x, q = PS (F x) /\
    (forall y, In (PS (F y)) (points c) -> y < w -> y <= x) /\ (forall y, In (PS (F y)) (points c) -> w < y -> x <= y) /\
    ((forall y, In (PS (F y)) (points c) -> w <= y) -> w / 100 <= x) /\ ((forall y, In (PS (F y)) (points c) -> y <= w) -> x <= 100 * w).
(* at least one candidate, and all vectors of the same length *)
Definition well_shaped (c : cand_arg) : Prop :=
  points c <> [] /\ match c with CVecs l => forall v w, In v l -> In w l -> length v = length w | _ => True end.
(* entry i, j of an array of floating-point numbers *)
Definition fentry (Q : list (list fnum)) (i j : nat) : fnum := nth j (nth i Q []) NaN.

(* GridModel.v -- utils/_gridsearch.py:25-193, gridsearch().  Printing and warnings are not modelled.  scipy's two
   optimizers are arbitrary strategies, apart from the check of the bounds.  No proofs here. *)
From Verif Require Export SpecGrid.
#[local] Open Scope R_scope.

(* _gridsearch.py:22 *)
Definition MAXOPTVAL : R := 10 ^ 20.
(* np.log10(x) and 10**x *)
Definition log10 (x : R) : fnum := if Rlt_dec 0 x then F (ln x / ln 10) else if Req_EM_T x 0 then MInf else NaN.
Definition pow10 (x : fnum) : fnum := match x with F y => F (Rpower 10 y) | PInf => PInf | MInf => F 0 | NaN => NaN end.
Definition pow10p (p : param) : param := match p with PS x => PS (pow10 x) | PV v => PV (map pow10 v) end.
(* Python's min(MAXOPTVAL, v): the first argument unless the second is smaller: _gridsearch.py:107-109 *)
Definition clip (v : fnum) : fnum := if flt v (F MAXOPTVAL) then v else F MAXOPTVAL.
Definition is_maxopt (v : fnum) : bool := match v with F x => if Req_EM_T x MAXOPTVAL then true else false | _ => false end.

(* np.sort: ascending *)
Fixpoint insert (x : R) (l : vec) : vec := match l with [] => [x] | y :: l' => if Rle_dec x y then x :: l else y :: insert x l' end.
Fixpoint sort (l : vec) : vec := match l with [] => [] | x :: l' => insert x (sort l') end.

(* np.atleast_1d and the unwrapping of one-element vectors: _gridsearch.py:85-88.  A sequence of vectors of different
   lengths is not an array. *)
Inductive cands := Scalars (l : vec) | Vectors (l : list vec).
Definition process (c : cand_arg) : res cands :=
  match c with
  | CNum x => Ok (Scalars [x])
  | CNums [] | CVecs [] => Err IndexError
  | CNums l => Ok (Scalars l)
  | CVecs ((v :: _) as l) => if negb (forallb (fun w => length w =? length v)%nat l) then Err ValueError
                             else if (length v =? 1)%nat then Ok (Scalars (map (fun w => nth 0 w 0) l)) else Ok (Vectors l)
  end.

Section Search.
  Context {St : Type}.
  Variable func : St -> param -> St * res fnum.          (* the function to be minimised, with its memory; it may raise *)
  Variable bounded : R -> R -> strat.                     (* scipy.optimize.minimize_scalar(..., method="bounded", bounds=...) *)
  Variable nelder_mead : list fnum -> strat.              (* scipy.optimize.minimize(..., x0, method="Nelder-Mead") *)

  (* the grid search: _gridsearch.py:116-124.  i counts the candidates, best is the winning error so far, w its index. *)
  Fixpoint grid (l : list param) (i : nat) (best : fnum) (w : option nat) (s : St) : St * res (fnum * option nat) :=
    match l with
    | [] => (s, Ok (best, w))
    | c :: l' => match func s c with
                 | (s', Err e) => (s', Err e)
                 | (s', Ok v) => if flt v best then grid l' (i + 1) v (Some i) s' else grid l' (i + 1) best w s'
                 end
    end.
  (* running an optimizer on logfunc: _gridsearch.py:107-109, 163-174 *)
  Fixpoint run (o : strat) (s : St) : St * res (bool * param * fnum) :=
    match o with
    | Stop ok x fv => (s, Ok (ok, x, fv))
    | Raise e => (s, Err e)
    | Ask x k => match func s (pow10p x) with
                 | (s', Err e) => (s', Err e)
                 | (s', Ok v) => run (k (clip v)) s'
                 end
    end.
  (* the bounds of the scalar search: _gridsearch.py:137-158.  l is sorted, w the index of the winner. *)
  Definition search_bounds (l : vec) (w : nat) : R * R :=
    let c := nth w l 0 in
    if (length l =? 1)%nat then (c / 100, 100 * c)
    else if (w =? 0)%nat then (c / 100, nth 1 l 0)
    else if (w =? length l - 1)%nat then (nth (length l - 2) l 0, 100 * c)
    else (nth (w - 1) l 0, nth (w + 1) l 0).
  (* minimize_scalar refuses bounds that are not finite or not ordered *)
  Definition minimize_scalar (lo hi : fnum) : strat :=
    match lo, hi with
    | F a, F b => if Rlt_dec b a then Raise ValueError else bounded a b
    | _, _ => Raise ValueError
    end.
  (* the end: _gridsearch.py:177-193 *)
  Definition report (winner : param) (best : fnum) (r : St * res (bool * param * fnum)) : St * res param :=
    match r with
    | (s, Err e) => (s, Err e)
    | (s, Ok (ok, x, fv)) => if negb (ok && negb (is_maxopt fv)) || flt best fv then (s, Ok winner) else (s, Ok (pow10p x))
    end.
  (* gridsearch(func, candidates, gridsearch_only): _gridsearch.py:84-193 *)
  Definition gridsearch (only : bool) (c : cand_arg) (s : St) : St * res param :=
    match process c with
    | Err e => (s, Err e)
    | Ok cs =>
        let cs := match cs with Scalars l => Scalars (sort l) | Vectors l => Vectors l end in
        let pts := match cs with Scalars l => map (fun x => PS (F x)) l | Vectors l => map (fun v => PV (map F v)) l end in
        match grid pts 0 PInf None s with
        | (s1, Err e) => (s1, Err e)
        | (s1, Ok (best, None)) => (s1, Err RuntimeError)
        | (s1, Ok (best, Some w)) =>
            let winner := nth w pts (PS NaN) in
            if only then (s1, Ok winner)
            else match cs with
                 | Scalars l => let '(lo, hi) := search_bounds l w in
                                report winner best (run (minimize_scalar (log10 lo) (log10 hi)) s1)
                 | Vectors l => report winner best (run (nelder_mead (map log10 (nth w l []))) s1)
                 end
        end
    end.
End Search.

(* ---- the stability tests: _gridsearch.py:232-350 ---- *)
(* a test: the initial condition, the bound; entries of a solution are floating-point numbers *)
Definition not_finite (x : fnum) : bool := match x with F _ => false | _ => true end.
(* |q - c| > b *)
Definition exceeds (b c : R) (x : fnum) : bool := match x with F q => if Rlt_dec b (Rabs (q - c)) then true else false | PInf | MInf => true | NaN => false end.
(* DiscreteRegTest.unstable(Q): _gridsearch.py:280-288.  Q has as many rows as the initial condition has entries. *)
Definition discrete_unstable (ic : vec) (bound : option R) (Q : list (list fnum)) : bool :=
  if existsb (existsb not_finite) Q then true
  else match bound with None => false | Some b => existsb (fun cr => existsb (exceeds b (fst cr)) (snd cr)) (combine ic Q) end.
(* ContinuousRegTest.unstable(Q): _gridsearch.py:340-350.  nt is the number of times asked for. *)
Definition continuous_unstable (nt : nat) (ic : vec) (bound : option R) (Q : list (list fnum)) : bool :=
  if negb (length (hd [] Q) =? nt)%nat then true else discrete_unstable ic bound Q.

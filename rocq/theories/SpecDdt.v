(* SpecDdt.v -- vocabulary for the statements about derivative estimation. *)
From Verif Require Export DdtModel.
#[local] Open Scope nat_scope.

(* the polynomial cs_0 + cs_1 x + cs_2 x^2 + ... *)
Definition peval (cs : list R) (x : R) : R := bsum (length cs) (fun k => (nth k cs 0 * x ^ k)%R).
(* row i of Q samples the function f i at the times t_0, ..., t_(k-1) *)
Definition samples (r k : nat) (t : nat -> R) (f : nat -> R -> R) (Q : mat) : Prop :=
  is_mat r k Q /\ forall i j, i < r -> j < k -> mget Q i j = f i (t j).
(* t_0, t_0 + dt, t_0 + 2 dt, ... *)
Definition grid (t0 dt : R) (j : nat) : R := (t0 + INR j * dt)%R.

(* the column of the first derivative estimate: forward schemes start at 0, backward ones at the order, central ones halfway *)
Definition first_col (md : mode) (order : nat) : nat := match md with Fwd => 0 | Bwd => order | Ctr => order / 2 end.
(* number of snapshots a scheme needs, and how many columns it keeps *)
Definition enough (s : scheme) (k : nat) : Prop := match scheme_mode s with Some _ => scheme_order s <= k | None => scheme_order s < k end.
Definition kept (s : scheme) (k : nat) : nat := match scheme_mode s with Some _ => k - scheme_order s | None => k end.
(* the inputs: none, or aligned with the states *)
Definition aligned (k : nat) (u : option arr) : Prop :=
  match u with None => True | Some (V v) => length v = k | Some (M A) => exists m, 0 < m /\ is_mat m k A end.
(* what estimate turns them into *)
Definition two_dim (x : arr) : mat := match x with V v => [v] | M A => A end.

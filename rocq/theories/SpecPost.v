(* SpecPost.v -- norms and distances, for property C50. *)
From Verif Require Export Spec.
#[local] Open Scope R_scope.

(* x^p for x >= 0 and p > 0 *)
Definition rpow (x p : R) : R := if Req_EM_T x 0 then 0 else Rpower x p.

(* the order of a norm as the user gives it: a real number, +inf, -inf or something that is not a scalar *)
Inductive order := Fin (p : R) | Inf | NegInf | NotScalar.
Definition pos_order (p : order) : Prop := match p with Fin p => 0 < p | Inf => True | _ => False end.
Definition at_least_one (p : order) : Prop := match p with Fin p => 1 <= p | Inf => True | _ => False end.

(* x is the p-norm of f(0), ..., f(n-1) *)
Definition is_pnorm (p : order) (n : nat) (f : nat -> R) (x : R) : Prop :=
  0 <= x /\
  match p with
  | Fin p => rpow x p = bsum n (fun i => rpow (Rabs (f i)) p)
  | Inf => (forall i, (i < n)%nat -> Rabs (f i) <= x) /\ exists i, (i < n)%nat /\ Rabs (f i) = x
  | _ => False
  end.
(* the integral of y over the times t by the trapezoidal rule *)
Definition trapz (k : nat) (t y : nat -> R) : R := bsum (k - 1) (fun j => (t (S j) - t j) * ((y j + y (S j)) / 2)).
(* x is the L^p norm over the times t of the n x k array f *)
Definition is_Lpnorm (p : order) (n k : nat) (t : nat -> R) (f : nat -> nat -> R) (x : R) : Prop :=
  0 <= x /\
  match p with
  | Fin p => rpow x p = trapz k t (fun j => bsum n (fun i => rpow (Rabs (f i j)) p))
  | Inf => (forall i j, (i < n)%nat -> (j < k)%nat -> Rabs (f i j) <= x) /\ exists i j, (i < n)%nat /\ (j < k)%nat /\ Rabs (f i j) = x
  | _ => False
  end.
(* times in order *)
Definition in_order (t : vec) : Prop := forall i j, (i < j)%nat -> (j < length t)%nat -> vget t i <= vget t j.
Definition strictly_ordered (t : vec) : Prop := forall i j, (i < j)%nat -> (j < length t)%nat -> vget t i < vget t j.
(* numpy's quotient: None is nan or an infinity *)
Definition quotient (a b : R) (q : option R) : Prop := (b = 0 /\ q = None) \/ (b <> 0 /\ q = Some (a / b)).
(* sum of the squares of the entries *)
Definition sumsq (n k : nat) (Q : mat) : R := bsum n (fun i => bsum k (fun j => Rsqr (mget Q i j))).
(* sum of the squares of the entries of Q - Q' *)
Definition gap2 (n k : nat) (Q Q' : mat) : R := bsum n (fun i => bsum k (fun j => Rsqr (mget Q i j - mget Q' i j))).
(* c Q *)
Definition times (n k : nat) (c : R) (Q Q' : mat) : Prop :=
  is_mat n k Q' /\ forall i j, (i < n)%nat -> (j < k)%nat -> mget Q' i j = c * mget Q i j.
(* the columns of V are orthonormal *)
Definition orthocols (n r : nat) (V : mat) : Prop :=
  is_mat n r V /\ forall a b, (a < r)%nat -> (b < r)%nat -> bsum n (fun i => mget V i a * mget V i b) = if Nat.eqb a b then 1 else 0.
(* V C, entry by entry *)
Definition combo (r : nat) (V C : mat) (i j : nat) : R := bsum r (fun a => mget V i a * mget C a j).

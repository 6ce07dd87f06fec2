(* SpecOps.v -- specification vocabulary for polynomial operators: index tuples and monomials. *)
From Verif Require Export Spec.
#[local] Open Scope nat_scope.

(* all p-tuples over {0,...,r-1} in lexicographic order *)
Fixpoint tuples (p r : nat) : list (list nat) :=
  match p with
  | 0 => [[]]
  | S p' => flat_map (fun i => map (cons i) (tuples p' r)) (seq 0 r)
  end.

(* i >= j >= k >= ... *)
Fixpoint noninc (t : list nat) : bool :=
  match t with
  | a :: ((b :: _) as t') => (b <=? a) && noninc t'
  | _ => true
  end.

(* the degree-p monomials in r variables, each once: non-increasing tuples, in lexicographic order *)
Definition monomials (p r : nat) : list (list nat) := filter noninc (tuples p r).

(* value of the monomial q_{t1} q_{t2} ... *)
Definition mono (q : vec) (t : list nat) : R := lprod (map (vget q) t).

(* position of a tuple in q (x) q (x) ... : base-r number with digits t *)
Fixpoint pos (r : nat) (t : list nat) : nat :=
  match t with
  | [] => 0
  | a :: t' => a * r ^ length t' + pos r t'
  end.

(* the Kronecker power q (x) q (x) ... (x) q with p factors *)
Fixpoint kron_power (p : nat) (q : vec) : vec :=
  match p with
  | 0 => [1%R]
  | S p' => flat_map (fun a => map (Rmult a) (kron_power p' q)) q
  end.

(* l lists the distinct rearrangements of the index tuple t *)
Definition rearrangements (t : list nat) (l : list (list nat)) : Prop :=
  NoDup l /\ forall s, In s l <-> Permutation s t.

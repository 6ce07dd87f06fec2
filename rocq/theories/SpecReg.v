(* SpecReg.v -- what a regularizer argument means and when it suits the data (C60). *)
From Verif Require Export SpecLstsq.
#[local] Open Scope R_scope.

(* no entry is negative *)
Definition no_negative (v : vec) : Prop := forall x, In x v -> 0 <= x.
(* the matrix G meant by an argument: a vector is the diagonal of a matrix, a matrix is itself *)
Definition meant (a : arr) (G : mat) : Prop :=
  match a with
  | V v => no_negative v /\ is_mat (length v) (length v) G /\
           (forall i j, (i < length v)%nat -> (j < length v)%nat -> mget G i j = if Nat.eqb i j then vget v i else 0)
  | M m => G = m
  end.
(* G has d rows and d columns *)
Definition square (d : nat) (G : mat) : Prop := nrows G = d /\ ncols G = d.

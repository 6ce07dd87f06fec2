(* Spec.v -- the vocabulary in which the properties are stated.
   Nothing here models code: these are the textbook notions (arrays, entries, finite sums,
   products, derivatives, minimisers) the theorem statements speak about. *)
From Coq Require Export Reals List Arith Lia Lra Permutation Bool.
Export ListNotations.
#[global] Open Scope R_scope.
#[global] Open Scope list_scope.

(* ---- results of calls: a value or a raised exception ------------------------------------- *)
Inductive err : Set :=
| ValueError | TypeError | AttributeError | IndexError | KeyError | RuntimeError
| ZeroDivisionError | NotImplementedError | FileExistsError | FileNotFoundError
| DimensionalityError | VerificationError | LoadfileFormatError | UserTimeoutError
| LinAlgError | OtherError.

Inductive res (A : Type) : Type :=
| Ok (a : A)
| Err (e : err).
Arguments Ok {A} _.
Arguments Err {A} _.

Definition raises {A} (x : res A) : Prop := exists e, x = Err e.

(* ---- arrays ------------------------------------------------------------------------------- *)
Notation vec := (list R) (only parsing).          (* one-dimensional array            *)
Notation mat := (list (list R)) (only parsing).   (* two-dimensional array: its rows  *)

(* entry access; only ever used inside the stated shape *)
Definition vget (v : vec) (i : nat) : R := nth i v 0.
Definition mget (M : mat) (i j : nat) : R := nth j (nth i M nil) 0.

Definition is_vec (n : nat) (v : vec) : Prop := List.length v = n.
Definition is_mat (r c : nat) (M : mat) : Prop :=
  List.length M = r /\ Forall (fun row => List.length row = c) M.

(* ---- finite sums --------------------------------------------------------------------------- *)
Fixpoint bsum (n : nat) (f : nat -> R) : R :=
  match n with
  | O => 0
  | S m => bsum m f + f m
  end.

(* the k-th column of a matrix with r rows *)
Definition colv (r : nat) (M : mat) (k : nat) : vec := map (fun i => mget M i k) (seq 0 r).

(* sum / product of a list *)
Definition lsum (l : list R) : R := fold_right Rplus 0 l.
Definition lprod (l : list R) : R := fold_right Rmult 1 l.

Arguments lsum : simpl never.
Arguments lprod : simpl never.

(* ---- directional derivative ---------------------------------------------------------------- *)
(* q + t*d, entry by entry *)
Definition along (q d : vec) (t : R) : vec :=
  map (fun i => vget q i + t * vget d i) (seq 0 (List.length q)).

(* a list of matrices with r rows and cs_1, cs_2, ... columns *)
Definition blocks (r : nat) (cs : list nat) (l : list mat) : Prop := Forall2 (fun c M => is_mat r c M) cs l.

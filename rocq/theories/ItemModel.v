(* ItemModel.v -- model of multi[key] of pre.TransformerMulti and basis.BasisMulti. *)
From Coq Require Import ZArith List.
From Verif Require Import LinAlg PreModel BasisModel.
Import ListNotations.
#[local] Open Scope nat_scope.

(* tuple[i] for an integer i: negative ones count from the end, IndexError outside *)
Definition tuple_item {A} (l : list A) (z : Z) : res A :=
  do i <- norm_index (length l) z; match nth_error l i with Some a => Ok a | None => Err IndexError end.
(* __getitem__: pre/_multi.py:439-443, basis/_multi.py:148-152.  A key among the variable names is replaced by its first position;
   any other string reaches tuple.__getitem__, which raises TypeError.  Keys are integers and strings here (no slices). *)
Definition getitem {A} (name : A -> option pystr) (l : list A) (key : varsel) : res A :=
  match key with
  | VName s => match index_of s (map name l) 0 with Some i => tuple_item l (Z.of_nat i) | None => Err TypeError end
  | VIdx z => tuple_item l z
  end.
Definition tf_getitem : list tf -> varsel -> res tf := getitem tf_name.
Definition b_getitem : list basis -> varsel -> res basis := getitem b_name.

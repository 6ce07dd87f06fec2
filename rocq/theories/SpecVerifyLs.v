(* SpecVerifyLs.v -- vocabulary for the statements about copy() and verify() of solvers. *)
From Coq Require Import String ZArith.
From Verif Require Export VerifyLsModel SpecVerifyOp.
#[local] Open Scope string_scope.
#[local] Open Scope nat_scope.

(* everything a user's solver that passed has been shown to satisfy: solve() has shape (r, d), copy() keeps the class, the
   dimensions and the result, and so do save() and load() of the copy, if they are implemented and return *)
Definition solver_checked (o : vsol) (f : fs) (k d r : nat) : Prop :=
  let a := vs_self o in
  exists Oh c sv ld O2, so_dims a = Some (k, d, r) /\ so_solve a = Ok (M Oh) /\ nrows Oh = r /\ ncols Oh = d /\
  vs_copy o = Ok (c, sv, ld) /\ so_class c = so_class a /\ so_dims c = Some (k, d, r) /\ so_solve c = Ok O2 /\ all_close O2 (M Oh) /\
  forall sv' ld' f1 x, sv = Some sv' -> ld = Some ld' -> sv' f stempfile = (f1, Done) -> ld' f1 stempfile = Ok x ->
    so_dims x = Some (k, d, r) /\ (so_solve x = Err NotImplementedError \/ exists O3, so_solve x = Ok O3 /\ all_close O3 (M Oh)).
(* arguments that are arrays with rows of one length, and regularizers that numpy accepts as arrays *)
Definition good_sev (ev : sev) : Prop := match ev with SFit D Z => good_arr D /\ good_arr Z | SReg g => valid_reg g end.
(* all these calls return *)
Fixpoint calls_returned (X : lsx) (s : lsq) (l : list sev) : Prop :=
  match l with nil => True | cons ev t => snd (sstep X s ev) = Ok tt /\ calls_returned X (fst (sstep X s ev)) t end.

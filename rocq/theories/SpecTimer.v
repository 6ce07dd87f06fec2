(* SpecTimer.v -- vocabulary for property C47. *)
From Verif Require Export TimerModel.
#[local] Open Scope R_scope.

(* durations are not negative *)
Fixpoint sane (p : prog) : Prop :=
  match p with Work d => 0 <= d | Throw _ => True | Seq p q | Try p q => sane p /\ sane q | Block _ p => sane p end.
(* the program does not raise TimeoutError by itself *)
Fixpoint no_own_timeout (p : prog) : Prop :=
  match p with Work _ => True | Throw e => e <> TimeoutError | Seq p q | Try p q => no_own_timeout p /\ no_own_timeout q | Block _ p => no_own_timeout p end.
(* the program has no block with a time limit *)
Fixpoint no_limit (p : prog) : Prop :=
  match p with Work _ | Throw _ => True | Seq p q | Try p q => no_limit p /\ no_limit q | Block tl p => tl = None /\ no_limit p end.
(* the program does not catch exceptions *)
Fixpoint no_try (p : prog) : Prop :=
  match p with Work _ | Throw _ => True | Seq p q => no_try p /\ no_try q | Try _ _ => False | Block _ p => no_try p end.
(* the time limits in a program *)
Fixpoint limits (p : prog) : list R :=
  match p with
  | Work _ | Throw _ => []
  | Seq p q | Try p q => limits p ++ limits q
  | Block tl p => match mk_limit tl with Some l => l :: limits p | None => limits p end
  end.
(* no alarm is pending *)
Definition quiet_world (w : world) : Prop := alarm w = None.

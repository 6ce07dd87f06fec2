(* SpecReq.v -- vocabulary for property C54 (what untrained objects do). *)
From Coq Require Import ZArith.
From Verif Require Export SpecObj SpecMono SpecPre SpecBasis.
#[local] Open Scope nat_scope.

(* the outcome of a call, without the value *)
Definition outcome {A} (x : res A) : res unit := match x with Ok _ => Ok tt | Err e => Err e end.
Definition refuses (x : res unit) : Prop := x = Err AttributeError.
Definition does_not_refuse (x : res unit) : Prop := x <> Err AttributeError.

(* ---- solvers ------------------------------------------------------------------------------------------------------- *)
(* what a user does to a solver: fit(D, Z), or an assignment to regularizer or num_svdmodes *)
Inductive sev := SFit (D Z : arr) | SReg (g : sreg).
Definition sstep (X : lsx) (s : lsq) (ev : sev) : lsq * res unit :=
  match ev with SFit D Z => lsq_fit X s D Z | SReg g => lsq_setreg s g end.
(* the solver after these statements, raising or not *)
Fixpoint srun (X : lsx) (s : lsq) (l : list sev) : lsq := match l with [] => s | ev :: t => srun X (fst (sstep X s ev)) t end.
Definition fit_called (l : list sev) : Prop := exists D Z, In (SFit D Z) l.
(* one of the calls of fit returned *)
Fixpoint fit_returned (X : lsx) (s : lsq) (l : list sev) : Prop :=
  match l with
  | [] => False
  | ev :: t => (exists D Z, ev = SFit D Z /\ snd (lsq_fit X s D Z) = Ok tt) \/ fit_returned X (fst (sstep X s ev)) t
  end.
(* a solver as its constructor leaves it *)
Definition new_solver (s : lsq) : Prop :=
  match s with
  | LPlain p => pl_data p = None
  | LL2 p => l2_pre p = None
  | LL2D p => ld_pre p = None
  | LTik p => tk_data p = None /\ tk_pre p = None
  | LTikD p => td_data p = None /\ td_pre p = None
  | LTsvd p => ts_pre p = None
  | LTls p => tl_data p = None /\ tl_sol p = None
  end.
(* it has a regularizer, if its class has that attribute *)
Definition has_reg (s : lsq) : Prop :=
  match s with LL2 p => l2_reg p <> None | LL2D p => ld_reg p <> None | LTik p => tk_reg p <> None | LTikD p => td_reg p <> None | _ => True end.
(* the methods marked as requiring training: solve(), residual(Ohat), and regresidual(Ohat), posterior(), regcond() where
   the class has them *)
Definition solver_calls (X : lsx) (s : lsq) (O : arr) : list (res unit) :=
  outcome (lsq_solve X s) ::
  match s with
  | LPlain p => [outcome (base_residual (pl_data p) O)]
  | LL2 p => [outcome (base_residual (odata (l2_pre p)) O); outcome (l2_regresidual p O); outcome (l2_posterior p); outcome (l2_regcond p)]
  | LL2D p => [outcome (base_residual (odata (ld_pre p)) O); outcome (ld_regresidual p O); outcome (ld_posterior p); outcome (ld_regcond p)]
  | LTik p => [outcome (base_residual (tk_data p) O); outcome (tk_regresidual p O); outcome (tk_posterior (x_lstsq X) (x_lsolve X) p)]
  | LTikD p => [outcome (base_residual (td_data p) O); outcome (td_regresidual p O); outcome (td_posterior (x_lstsq X) (x_lsolve X) p)]
  | LTsvd p => [outcome (base_residual (odata (ts_pre p)) O)]
  | LTls p => [outcome (base_residual (tl_data p) O)]
  end.
(* the routines of scipy.linalg do not raise AttributeError *)
Definition lsx_quiet (X : lsx) : Prop :=
  (forall o A B, x_lstsq X o A B <> Err AttributeError) /\ (forall A, x_lsvd X A <> Err AttributeError) /\ (forall A B, x_lsolve X A B <> Err AttributeError).

(* ---- transformers ---------------------------------------------------------------------------------------------------- *)
(* it has not learned what its options call for *)
Fixpoint unfit (t : tf) : Prop :=
  match t with
  | TShift _ _ | TNull _ _ => False
  | TScale _ n _ => n = None
  | TSS s => (ss_cent s = true /\ ss_mean s = None) \/ (ss_scaling s <> None /\ (ss_scale s = None \/ ss_shift s = None))
  | TPipe l _ => (fix some (l : list tf) := match l with [] => False | t :: l' => unfit t \/ some l' end) l
  | TMulti l => In None (variable_sizes l) \/ (fix some (l : list tf) := match l with [] => False | t :: l' => unfit t \/ some l' end) l
  end.
(* a transformer that does not join others *)
Definition single (t : tf) : Prop := match t with TPipe _ _ | TMulti _ => False | _ => True end.
(* ---- bases --------------------------------------------------------------------------------------------------------------- *)
(* the PODBasis after these statements, raising or not *)
Fixpoint pod_history (X : ext) (p : pod) (os : list pod_op) : pod := match os with [] => p | o :: os' => pod_history X (fst (pod_step X o p)) os' end.
(* compress, decompress, project and projection_error *)
Definition basis_calls (b : basis) (a q : arr) (locs : option locsel) (rel : bool) : list (res unit) :=
  [outcome (b_compress b a); outcome (b_decompress b q locs); outcome (b_project b a); outcome (b_error b a rel)].

(* ---- models -------------------------------------------------------------------------------------------------------------- *)
(* an operator without entries *)
Definition lacks_entries (d : model) : Prop := exists o, In o (m_ops d) /\ mo_ent o = None.
(* predict() and operator_matrix *)
Definition model_calls (d : model) (q0 : arr) (n : Z) (inputs : option inputarg) : list (res unit) :=
  [outcome (predict d q0 n inputs); outcome (operator_matrix d)].
(* rhs() and jacobian() of the model *)
Definition model_evals (junk : nat -> vec) (d : model) (q : arr) (u : option arr) (q1 : vec) (u1 : option vec) : list (res unit) :=
  [outcome (rhs d q u); outcome (model_jacobian junk d q1 u1)].

(* ---- operators ----------------------------------------------------------------------------------------------------------- *)
(* call number i is an assignment to the entries, and it returned *)
Definition set_returned (ks : list call) (answers : list answer) (i : nat) : Prop :=
  exists x, nth_error ks i = Some (SetEntries x) /\ nth_error answers i = Some (AUnit (Ok tt)).
(* call number i deletes the entries *)
Definition deletes (ks : list call) (i : nat) : Prop := nth_error ks i = Some DelEntries.

(* SpecNamed.v -- vocabulary for the statements about named operators and str(model). *)
From Coq Require Import String ZArith.
From Verif Require Export NamedModel SpecMono SpecPara.
#[local] Open Scope nat_scope.
#[local] Open Scope list_scope.

(* the letters of the documentation *)
Definition letters : list (string * cls) :=
  [("c", CConst); ("A", CLin); ("H", CPoly Quadratic); ("G", CPoly Cubic); ("B", CInp); ("N", CStIn)]%string.
(* o is at position i and the first of its class *)
Definition first_at (c : cls) (l : list mop) (i : nat) (o : mop) : Prop :=
  nth_error l i = Some o /\ mo_cls o = c /\ forall j o', j < i -> nth_error l j = Some o' -> mo_cls o' <> c.
(* y is what a named operator contributes at (q, u): nothing if there is none *)
Definition contributes (r : nat) (q : vec) (u : option vec) (a : option mop) (y : vec) : Prop :=
  is_vec r y /\ match a with Some o => op_apply o (V q) (option_map V u) = Ok (V y) | None => forall i, i < r -> vget y i = 0%R end.
(* everything str(model) shows is the same *)
Definition look_alike (sl : option lsq -> list string) (d1 d2 : model) : Prop :=
  m_kind d1 = m_kind d2 /\ m_frozen d1 = m_frozen d2 /\ m_r d1 = m_r d2 /\ m_m d1 = m_m d2 /\
  map mo_cls (m_ops d1) = map mo_cls (m_ops d2) /\ map shape_of (m_ops d1) = map shape_of (m_ops d2) /\
  join (nl ++ "  ")%string (sl (m_solver d1)) = join (nl ++ "  ")%string (sl (m_solver d2)).
(* how often a character occurs in a text *)
Fixpoint occurrences (a : Ascii.ascii) (s : string) : nat :=
  match s with EmptyString => 0 | String b s' => (if Ascii.eqb a b then 1 else 0) + occurrences a s' end.
(* the degree in the state and in the input of an operator of the class: c, A q, H[q x q], G[q x q x q], ..., B u, N[u x q] *)
Definition state_degree (c : cls) : nat := match c with CConst | CInp => 0 | CLin | CStIn => 1 | CPoly Quadratic => 2 | CPoly Cubic => 3 | CPoly Quartic => 4 end.
Definition input_degree (c : cls) : nat := match c with CInp | CStIn => 1 | _ => 0 end.

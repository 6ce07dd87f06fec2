(* NamedModel.v -- the attributes c_, A_, H_, G_, B_, N_ of models and str(model), for models of operators of the library:
   models/mono/_base.py:127-155, _nonparametric.py:81-106, _parametric.py:79-88, operators/_base.py:84-90, 632-634 and the
   methods _str in operators/_nonparametric.py.  No proofs here. *)
From Coq Require Import String DecimalString ZArith.
From Verif Require Export SaveModel ParaModel.
#[local] Open Scope string_scope.
#[local] Open Scope nat_scope.
#[local] Open Scope list_scope.

(* _get_operator_of_type: models/mono/_nonparametric.py:81-85.  No class of the library is a subclass of another. *)
Definition of_type (c : cls) (d : model) : option mop := find (fun o => cls_eqb (mo_cls o) c) (m_ops d).
(* models/mono/_base.py:127-155 *)
Definition c_ : model -> option mop := of_type CConst.
Definition A_ : model -> option mop := of_type CLin.
Definition H_ : model -> option mop := of_type (CPoly Quadratic).
Definition G_ : model -> option mop := of_type (CPoly Cubic).
Definition B_ : model -> option mop := of_type CInp.
Definition N_ : model -> option mop := of_type CStIn.
(* models/mono/_parametric.py:79-88 *)
Definition pof_type (c : cls) (d : pmodel) : option pop := find (fun o => cls_eqb (pcls o) c) (pm_ops d).

(* ---- str() -------------------------------------------------------------------------------------------------------------- *)
(* sep.join(l) *)
Definition join (sep : string) (l : list string) : string := String.concat sep l.
Definition nl : string := String (Ascii.ascii_of_nat 10) "".
(* str(n), str(None) *)
Definition dec (n : nat) : string := NilEmpty.string_of_uint (Nat.to_uint n).
Definition odec (x : option nat) : string := match x with Some n => dec n | None => "None" end.
(* the labels: models/mono/_nonparametric.py:501-503, 620-622, 855-857 *)
Definition lhs_label (k : kind) : string := match k with KSteady => "z" | KDiscrete => "q_{j+1}" | KContinuous => "dq / dt" end.
Definition state_label (k : kind) : string := match k with KSteady => "q" | KDiscrete => "q_{j}" | KContinuous => "q(t)" end.
Definition input_label (k : kind) : string := match k with KSteady => "None" | KDiscrete => "u_{j}" | KContinuous => "u(t)" end.
(* _str: operators/_nonparametric.py:46-48, 215-217, 400-402, 887-889, 1357-1359, 1855-1857, 2029-2031 *)
Definition op_term (q u : string) (c : cls) : string :=
  match c with
  | CConst => "c"
  | CLin => "A" ++ q
  | CPoly Quadratic => "H[" ++ q ++ " ⊗ " ++ q ++ "]"
  | CPoly Cubic => "G[" ++ q ++ " ⊗ " ++ q ++ " ⊗ " ++ q ++ "]"
  | CPoly Quartic => "G[" ++ q ++ " ⊗ " ++ q ++ " ⊗ " ++ q ++ " ⊗ " ++ q ++ "]"
  | CInp => "B" ++ u
  | CStIn => "N[" ++ u ++ " ⊗ " ++ q ++ "]"
  end%string.
(* entries.shape; None without entries *)
Definition shape_of (o : mop) : option (list nat) :=
  match mo_ent o with
  | None => None
  | Some (OConst c) => Some [length c]
  | Some (OLin A) | Some (OPoly _ A) | Some (OInp A) | Some (OStIn A) => Some [nrows A; ncols A]
  end.
(* str(tuple) *)
Definition shape_str (s : option (list nat)) : string :=
  match s with
  | None => "None"
  | Some [n] => "(" ++ dec n ++ ",)"
  | Some l => "(" ++ join ", " (map dec l) ++ ")"
  end%string.
(* the lines of str(op): operators/_base.py:84-90, 632-634; state_dimension and input_dimension are None without entries *)
Definition op_lines (o : mop) : list string :=
  [base_name (mo_cls o); "  state_dimension: " ++ odec (option_map op_rows (mo_ent o))]%string ++
  (if has_inputs (mo_cls o) then ["  input_dimension: " ++ odec (option_map op_inputs (mo_ent o))]%string else []) ++
  ["  entries.shape:   " ++ shape_str (shape_of o)]%string.
Definition op_str (o : mop) : string := join nl (op_lines o).
(* self.__class__.__name__ *)
Definition model_class (d : model) : string :=
  ((if m_frozen d then "_Frozen" else "") ++ match m_kind d with KSteady => "SteadyModel" | KDiscrete => "DiscreteModel" | KContinuous => "ContinuousModel" end)%string.
Definition structure (d : model) : string :=
  (lhs_label (m_kind d) ++ " = " ++ join " + " (map (fun o => op_term (state_label (m_kind d)) (input_label (m_kind d)) (mo_cls o)) (m_ops d)))%string.
(* __str__: models/mono/_nonparametric.py:88-106.  sl: the lines of str(solver), any function. *)
Definition model_str (sl : option lsq -> list string) (d : model) : string :=
  join (nl ++ "  ")%string
    ([model_class d; "structure: " ++ structure d; "state_dimension: " ++ odec (m_r d); "input_dimension: " ++ odec (m_m d); "operators:"]%string ++
     map (fun o => ("  " ++ join (nl ++ "    ") (op_lines o))%string) (m_ops d) ++
     ["solver: " ++ join (nl ++ "  ") (sl (m_solver d))]%string).

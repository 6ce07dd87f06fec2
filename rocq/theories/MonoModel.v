(* MonoModel.v -- models/mono/_base.py and models/mono/_nonparametric.py: SteadyModel, DiscreteModel, ContinuousModel and
   their "frozen" versions.  Operators belong to the model (nobody else writes to them); the caches of an operator do not
   show (C26), so an operator is its class and its entries.  PolynomialOperator, warnings, printing and save/load are not
   modelled.  The solver is one of the seven classes of SolverModel.v.  No proofs here. *)
From Coq Require Import ZArith String.
From Verif Require Export SolverModel.

#[local] Open Scope nat_scope.
#[local] Open Scope list_scope.

(* ---- operators of a model ------------------------------------------------------------------------------------------ *)
Record mop := { mo_cls : cls; mo_ent : option op }.
Definition uncal (o : mop) : bool := match mo_ent o with None => true | Some _ => false end.       (* operators/_utils.py *)
Definition clear_op (o : mop) : mop := {| mo_cls := mo_cls o; mo_ent := None |}.                   (* operators/_base.py:544-552 *)
(* input_dimension: operators/_nonparametric.py:1853, 2025-2027 *)
Definition op_inputs (o : op) : nat := match o with OInp B => ncols B | OStIn N => ncols N / nrows N | _ => 0 end.

(* an element of the list given as `operators` *)
Inductive oparg := AOp (o : mop) | AStr (s : string) | AOther.
(* models/mono/_nonparametric.py:39-46 *)
Definition abbreviation (s : string) : option cls :=
  if String.eqb s "c"%string then Some CConst else if String.eqb s "A"%string then Some CLin
  else if String.eqb s "H"%string then Some (CPoly Quadratic) else if String.eqb s "G"%string then Some (CPoly Cubic)
  else if String.eqb s "B"%string then Some CInp else if String.eqb s "N"%string then Some CStIn else None.
(* one step of the loop models/mono/_base.py:85-96 *)
Definition resolve1 (a : oparg) : res mop :=
  match a with
  | AOp o => Ok o
  | AStr s => match abbreviation s with Some c => Ok {| mo_cls := c; mo_ent := None |} | None => Err TypeError end
  | AOther => Err TypeError
  end.
(* the loop models/mono/_base.py:84-102; the boolean is self._has_inputs *)
Fixpoint resolve (hi : bool) (args : list oparg) : bool * res (list mop) :=
  match args with
  | [] => (hi, Ok [])
  | a :: t => match resolve1 a with
              | Err e => (hi, Err e)
              | Ok o => let '(hi', l) := resolve (hi || has_inputs (mo_cls o)) t in (hi', do l' <- l; Ok (o :: l'))
              end
  end.
Definition indices (p : mop -> bool) (l : list mop) : list nat :=
  filter (fun i => match nth_error l i with Some o => p o | None => false end) (seq 0 (length l)).
Definition degree_eqb (a b : degree) : bool :=
  match a, b with Quadratic, Quadratic | Cubic, Cubic | Quartic, Quartic => true | _, _ => false end.
Definition cls_eqb (a b : cls) : bool :=
  match a, b with
  | CConst, CConst | CLin, CLin | CInp, CInp | CStIn, CStIn => true
  | CPoly d, CPoly d' => degree_eqb d d'
  | _, _ => false
  end.
Fixpoint duplicates (l : list cls) : bool := match l with [] => false | c :: t => existsb (cls_eqb c) t || duplicates t end.

(* a Python set of dimensions: none, one, or an error: models/mono/_base.py:163-171, 200-210 *)
Definition one_of (l : list nat) : res (option nat) :=
  match l with [] => Ok None | a :: t => if forallb (Nat.eqb a) t then Ok (Some a) else Err DimensionalityError end.
Definition entries_of (l : list mop) : list op := flat_map (fun o => match mo_ent o with Some e => [e] | None => [] end) l.
Definition takes_input (o : mop) : bool := has_inputs (mo_cls o).
Definition state_dim (l : list mop) : res (option nat) := one_of (map op_rows (entries_of l)).
Definition input_dim (l : list mop) : res (option nat) :=
  match filter takes_input l with [] => Ok (Some 0) | l' => one_of (map op_inputs (entries_of l')) end.

(* ---- the least-squares solver of a model ----------------------------------------------------------------------------- *)
Record lsx := { x_lstsq : lsopts -> mat -> mat -> res mat; x_lsvd : mat -> res (mat * vec * mat); x_lsolve : mat -> mat -> res mat }.
Inductive lsq := LPlain (s : plain) | LL2 (s : l2) | LL2D (s : l2d) | LTik (s : tk) | LTikD (s : tkd) | LTsvd (s : tsvd) | LTls (s : tls).
Definition keep {A B} (old : B) (f : A -> B) (x : res A) : B * res unit :=
  match x with Ok a => (f a, Ok tt) | Err e => (old, Err e) end.
Definition wrap {A B} (f : A -> B) (x : A * res unit) : B * res unit := (f (fst x), snd x).
(* solver.fit(D, Z) and solver.solve() *)
Definition lsq_fit (X : lsx) (s : lsq) (D Z : arr) : lsq * res unit :=
  match s with
  | LPlain p => keep s LPlain (plain_fit p D Z)
  | LL2 p => keep s LL2 (l2_fit (x_lsvd X) p D Z)
  | LL2D p => wrap LL2D (ld_fit (x_lsvd X) p D Z)
  | LTik p => wrap LTik (tk_fit p D Z)
  | LTikD p => wrap LTikD (td_fit p D Z)
  | LTsvd p => keep s LTsvd (ts_fit (x_lsvd X) p D Z)
  | LTls p => wrap LTls (tls_fit (x_lsvd X) (x_lsolve X) p D Z)
  end.
Definition lsq_solve (X : lsx) (s : lsq) : res mat :=
  match s with
  | LPlain p => plain_solve (x_lstsq X) p
  | LL2 p => l2_solve p
  | LL2D p => ld_solve p
  | LTik p => tk_solve (x_lstsq X) (x_lsolve X) p
  | LTikD p => td_solve (x_lstsq X) (x_lsolve X) p
  | LTsvd p => ts_solve p
  | LTls p => tls_solve p
  end.

(* solver.regularizer = g (or num_svdmodes = n) *)
Inductive sreg := GL2 (g : regarg) | GTik (g : option arr) | GTikD (g : option (list arr)) | GModes (n : option Z).
(* an attribute the solver's class does not define is merely stored on the object *)
Definition lsq_setreg (s : lsq) (g : sreg) : lsq * res unit :=
  match s, g with
  | LL2 p, GL2 g => wrap LL2 (l2_set p g)
  | LL2D p, GL2 g => wrap LL2D (ld_set p g)
  | LTik p, GTik g => wrap LTik (tk_set p g)
  | LTikD p, GTikD g => wrap LTikD (td_set p g)
  | LTsvd p, GModes n => wrap LTsvd (ts_set p n)
  | _, _ => (s, Ok tt)
  end.

(* ---- the model object -------------------------------------------------------------------------------------------------- *)
Inductive kind := KSteady | KDiscrete | KContinuous.
Record model := { m_kind : kind; m_frozen : bool; m_ops : list mop; m_infer : list nat; m_known : list nat; m_hasin : bool;
                  m_r : option nat; m_m : option nat; m_intrusive : bool; m_solver : option lsq }.
Definition with_hasin (b : bool) (d : model) : model :=
  {| m_kind := m_kind d; m_frozen := m_frozen d; m_ops := m_ops d; m_infer := m_infer d; m_known := m_known d; m_hasin := b;
     m_r := m_r d; m_m := m_m d; m_intrusive := m_intrusive d; m_solver := m_solver d |}.
Definition with_r (r : option nat) (d : model) : model :=
  {| m_kind := m_kind d; m_frozen := m_frozen d; m_ops := m_ops d; m_infer := m_infer d; m_known := m_known d; m_hasin := m_hasin d;
     m_r := r; m_m := m_m d; m_intrusive := m_intrusive d; m_solver := m_solver d |}.
Definition with_m (m : option nat) (d : model) : model :=
  {| m_kind := m_kind d; m_frozen := m_frozen d; m_ops := m_ops d; m_infer := m_infer d; m_known := m_known d; m_hasin := m_hasin d;
     m_r := m_r d; m_m := m; m_intrusive := m_intrusive d; m_solver := m_solver d |}.
Definition with_ops (l : list mop) (d : model) : model :=
  {| m_kind := m_kind d; m_frozen := m_frozen d; m_ops := l; m_infer := m_infer d; m_known := m_known d; m_hasin := m_hasin d;
     m_r := m_r d; m_m := m_m d; m_intrusive := m_intrusive d; m_solver := m_solver d |}.
Definition with_solver (s : option lsq) (d : model) : model :=
  {| m_kind := m_kind d; m_frozen := m_frozen d; m_ops := m_ops d; m_infer := m_infer d; m_known := m_known d; m_hasin := m_hasin d;
     m_r := m_r d; m_m := m_m d; m_intrusive := m_intrusive d; m_solver := s |}.

(* a statement on the object: the object it leaves behind, and what it returns or raises *)
Definition seqm {A B} (x : model * res A) (f : model -> A -> model * res B) : model * res B :=
  match x with (d, Ok a) => f d a | (d, Err e) => (d, Err e) end.

(* operators = args: models/mono/_base.py:73-111.  A failing assignment has already changed _has_inputs (and, if only the
   input dimensions disagree, the state dimension). *)
Definition set_operators (args : list oparg) (d : model) : model * res unit :=
  match args with
  | [] => (d, Err ValueError)
  | _ =>
      let '(hi, l) := resolve false args in
      let d1 := with_hasin hi d in
      match l with
      | Err e => (d1, Err e)
      | Ok ops =>
          if duplicates (map mo_cls (filter uncal ops)) then (d1, Err ValueError)
          else match state_dim ops with
               | Err e => (d1, Err e)
               | Ok r =>
                   match input_dim ops with
                   | Err e => (with_r r d1, Err e)
                   | Ok m =>
                       let toinfer := indices uncal ops in
                       ({| m_kind := m_kind d; m_frozen := m_frozen d; m_ops := ops; m_infer := toinfer;
                           m_known := indices (fun o => negb (uncal o)) ops; m_hasin := hi; m_r := r; m_m := m;
                           m_intrusive := length toinfer =? 0; m_solver := m_solver d |}, Ok tt)
                   end
               end
      end
  end.

(* solver = arg: models/mono/_base.py:333-368; an object without fit() or solve() is not modelled.  Frozen models ignore
   the assignment: _nonparametric.py:1085-1091 *)
Inductive solverarg := SNone | SNum (x : R) | SObj (s : lsq) | SClass.
Definition new_plain : lsq := LPlain {| pl_opts := no_opts; pl_data := None |}.
Definition set_solver (a : solverarg) (d : model) : model * res unit :=
  if m_frozen d then (d, Ok tt)
  else if m_intrusive d then (with_solver None d, Ok tt)
  else match a with
       | SNone => (with_solver (Some new_plain) d, Ok tt)
       | SNum x => if Req_EM_T x 0 then (with_solver (Some new_plain) d, Ok tt)
                   else if Rlt_dec 0 x then (with_solver (Some (LL2 {| l2_reg := Some x; l2_pre := None |})) d, Ok tt)
                   else (d, Err ValueError)
       | SObj s => (with_solver (Some s) d, Ok tt)
       | SClass => (d, Err TypeError)
       end.

(* __init__: models/mono/_base.py:33-39 *)
Definition blank (k : kind) (frozen : bool) : model :=
  {| m_kind := k; m_frozen := frozen; m_ops := []; m_infer := []; m_known := []; m_hasin := false; m_r := None; m_m := None;
     m_intrusive := false; m_solver := None |}.
Definition mk_model (k : kind) (frozen : bool) (args : list oparg) (s : solverarg) : res model :=
  match seqm (set_operators args (blank k frozen)) (fun d _ => set_solver s d) with
  | (d, Ok _) => Ok d
  | (_, Err e) => Err e
  end.

(* state_dimension = r, input_dimension = m: models/mono/_base.py:179-190, 218-236 *)
Definition set_state_dimension (r : nat) (d : model) : model * res unit :=
  if forallb (fun o => op_rows o =? r) (entries_of (m_ops d)) then (with_r (Some r) d, Ok tt) else (d, Err AttributeError).
Definition set_input_dimension (m : nat) (d : model) : model * res unit :=
  if negb (m_hasin d) && negb (m =? 0) then (d, Err AttributeError)
  else if forallb (fun o => op_inputs o =? m) (entries_of (filter takes_input (m_ops d))) then (with_m (Some m) d, Ok tt)
  else (d, Err AttributeError).

(* l[i] = x *)
Fixpoint upd {A} (i : nat) (x : A) (l : list A) : list A :=
  match l, i with [], _ => [] | _ :: t, 0 => x :: t | a :: t, S i' => a :: upd i' x t end.
(* _clear: models/mono/_base.py:113-120; disabled for frozen models, _nonparametric.py:1079-1083 *)
Definition clear_ops (ix : list nat) (l : list mop) : list mop :=
  fold_left (fun l i => match nth_error l i with Some o => upd i (clear_op o) l | None => l end) ix l.
Definition clear (d : model) : model * res unit :=
  if m_frozen d then (d, Err NotImplementedError) else
  let d1 := with_ops (clear_ops (m_infer d) (m_ops d)) d in
  match state_dim (m_ops d1) with
  | Err e => (d1, Err e)
  | Ok r => let d2 := with_r r d1 in
            match input_dim (m_ops d2) with Err e => (d2, Err e) | Ok m => (with_m m d2, Ok tt) end
  end.

Definition is_dim (x : option nat) (n : nat) : bool := match x with Some a => a =? n | None => false end.
(* op.apply(state, input_) of a model's operator: @requires("entries"); an input operator given None raises *)
Definition op_apply (o : mop) (state : arr) (input : option arr) : res arr :=
  match mo_ent o with
  | None => Err AttributeError
  | Some e => match input with
              | Some u => apply e state u
              | None => if takes_input o then Err OtherError else apply e state (V [])
              end
  end.
Definition op_datablock (o : mop) (states : mat) (inputs : option arr) : res mat :=
  match inputs with
  | Some u => datablock (proto (mo_cls o)) (M states) u
  | None => if takes_input o then Err OtherError else datablock (proto (mo_cls o)) (M states) (V [])
  end.
Definition nth_op (i : nat) (l : list mop) : res mop := match nth_error l i with Some o => Ok o | None => Err IndexError end.
(* lhs - op.apply(states, inputs) for the known operators: _nonparametric.py:177-178.  (Results of another shape, which
   numpy would broadcast or reject, are rejected.) *)
Fixpoint subtract_known (l : list mop) (ix : list nat) (S : mat) (U : option arr) (L : mat) : res mat :=
  match ix with
  | [] => Ok L
  | i :: t =>
      do o <- nth_op i l; do y <- op_apply o (M S) U;
      match y with
      | M Y => if shape_is (nrows L) (ncols L) Y then subtract_known l t S U (msub L Y) else Err ValueError
      | V _ => Err ValueError
      end
  end.

(* _process_fit_arguments: _nonparametric.py:130-180 *)
Definition process_fit (d : model) (states lhs : arr) (inputs : option arr) : model * res (mat * mat * option arr) :=
  seqm (clear d) (fun d _ =>
  let S := atleast_2d states in
  seqm (match m_r d with None => set_state_dimension (nrows S) d | Some _ => (d, Ok tt) end) (fun d _ =>
  if negb (is_dim (m_r d) (nrows S)) then (d, Err DimensionalityError) else
  let L := atleast_2d lhs in
  if negb (is_dim (m_r d) (nrows L)) then (d, Err DimensionalityError) else
  if negb (ncols L =? ncols S) then (d, Err DimensionalityError) else
  seqm (if m_hasin d then
          match inputs with
          | None => (d, Err ValueError)
          | Some u =>
              let U := atleast_2d u in
              seqm (match m_m d with None | Some 0 => set_input_dimension (nrows U) d | Some _ => (d, Ok tt) end) (fun d _ =>
              if negb (is_dim (m_m d) (nrows U)) then (d, Err DimensionalityError) else
              if negb (ncols U =? ncols S) then (d, Err DimensionalityError) else (d, Ok (Some (M U))))
          end
        else (d, Ok inputs)) (fun d U =>
  (d, do L' <- subtract_known (m_ops d) (m_known d) S U L; Ok (S, L', U))))).

(* _assemble_data_matrix: _nonparametric.py:182-219 *)
Definition assemble (d : model) (S : mat) (U : option arr) : res mat :=
  do blocks <- mapM (fun i => do o <- nth_op i (m_ops d); do B <- op_datablock o S U; Ok (mT B)) (m_infer d);
  match blocks with [] => Err ValueError | _ => Ok (hstack blocks) end.

(* op.set_entries(E) for a two-dimensional E: as in EntriesModel.v; a ConstantOperator takes one column or one row *)
Definition set_2d (c : cls) (E : mat) : res op :=
  match c with
  | CConst => if ncols E =? 1 then Ok (OConst (map (fun row => nth 0 row 0%R) E))
              else if nrows E =? 1 then Ok (OConst (nth 0 E [])) else Err ValueError
  | _ => construct c E
  end.
(* operator_dimension(r, m) when r or m may be None *)
Definition width (c : cls) (r m : option nat) : res nat :=
  match r, m with
  | Some r, Some m => Ok (opdim (proto c) r m)
  | Some r, None => if has_inputs c then Err TypeError else Ok (opdim (proto c) r 0)
  | None, _ => match c with CConst => Ok 1 | CInp => match m with Some m => Ok m | None => Err TypeError end | _ => Err TypeError end
  end.
(* _extract_operators: _nonparametric.py:221-236; operators already written stay written if a later one raises *)
Fixpoint extract (r m : option nat) (O : mat) (idx : nat) (ix : list nat) (l : list mop) : list mop * res unit :=
  match ix with
  | [] => (l, Ok tt)
  | i :: t =>
      match nth_error l i with
      | None => (l, Err IndexError)
      | Some o =>
          match (do w <- width (mo_cls o) r m; do e <- set_2d (mo_cls o) (mcols idx (idx + w) O); Ok (w, e)) with
          | Err e => (l, Err e)
          | Ok (w, e) => extract r m O (idx + w) t (upd i {| mo_cls := mo_cls o; mo_ent := Some e |} l)
          end
      end
  end.

(* _fit_solver: _nonparametric.py:238-247 *)
Definition fit_solver (X : lsx) (d : model) (states lhs : arr) (inputs : option arr) : model * res unit :=
  seqm (process_fit d states lhs inputs) (fun d t =>
  let '(Q, L, U) := t in
  match assemble d Q U with
  | Err e => (d, Err e)
  | Ok D => match m_solver d with
            | None => (d, Err AttributeError)
            | Some s => let '(s', x) := lsq_fit X s (M D) (M L) in (with_solver (Some s') d, x)
            end
  end).
(* refit(): _nonparametric.py:260-270 *)
Definition refit (X : lsx) (d : model) : model * res unit :=
  if m_intrusive d then (d, Ok tt)
  else match m_solver d with
       | None => (d, Err AttributeError)
       | Some s => match lsq_solve X s with
                   | Err e => (d, Err e)
                   | Ok Oh => let '(l, x) := extract (m_r d) (m_m d) Oh 0 (m_infer d) (m_ops d) in (with_ops l d, x)
                   end
       end.
(* fit(states, lhs, inputs): _nonparametric.py:324-333, 1093-1097 *)
Definition fit (X : lsx) (d : model) (states lhs : arr) (inputs : option arr) : model * res unit :=
  if m_frozen d then (d, Err NotImplementedError)
  else if m_intrusive d then (d, Ok tt)
  else seqm (fit_solver X d states lhs inputs) (fun d _ => refit X d).

(* model.solver.regularizer = g *)
Definition set_regularizer (g : sreg) (d : model) : model * res unit :=
  match m_solver d with
  | None => (d, Err AttributeError)
  | Some s => let '(s', x) := lsq_setreg s g in (with_solver (Some s') d, x)
  end.

(* _check_is_trained: models/mono/_base.py:383-390 *)
Definition check_trained (d : model) : res unit :=
  match m_r d with
  | None => Err AttributeError
  | Some _ => if m_hasin d && match m_m d with None => true | Some _ => false end then Err AttributeError
              else if existsb uncal (m_ops d) then Err AttributeError else Ok tt
  end.
(* operator_matrix: _nonparametric.py:121-127 *)
Definition operator_matrix (d : model) : res mat :=
  do _ <- check_trained d;
  do es <- mapM (fun i => do o <- nth_op i (m_ops d); match mo_ent o with Some e => Ok (entries2 e) | None => Err AttributeError end) (m_infer d);
  match es with [] => Err ValueError | _ => Ok (hstack es) end.

(* out += x: the shape of out cannot change *)
Definition fits_into (r c : nat) (A : mat) : bool := ((nrows A =? r) || (nrows A =? 1)) && ((ncols A =? c) || (ncols A =? 1)).
Definition iadd (out x : arr) : res arr :=
  match out, x with
  | V u, V v => if length v =? length u then Ok (V (vadd u v))
                else if length v =? 1 then Ok (V (map (Rplus (nth 0 v 0%R)) u)) else Err ValueError
  | V _, M _ => Err ValueError
  | M A, M B => if shape_is (nrows A) (ncols A) B then Ok (M (madd A B))
                else if fits_into (nrows A) (ncols A) B
                     then Ok (M (tab2 (nrows A) (ncols A) (fun i j => (mget A i j + bget B i j)%R))) else Err ValueError
  | M A, V v => if (length v =? ncols A) || (length v =? 1)
                then Ok (M (tab2 (nrows A) (ncols A) (fun i j => (mget A i j + bget [v] i j)%R))) else Err ValueError
  end.
Fixpoint sum_apply (l : list mop) (state : arr) (input : option arr) (out : arr) : res arr :=
  match l with
  | [] => Ok out
  | o :: t => do y <- op_apply o state input; do out' <- iadd out y; sum_apply t state input out'
  end.
(* rhs(state, input_): _nonparametric.py:359-362 (np.zeros_like of a float array) *)
Definition rhs (d : model) (state : arr) (input : option arr) : res arr :=
  sum_apply (m_ops d) state input (emap (fun _ => 0%R) state).
(* op.jacobian(state, input_) *)
Definition op_jacobian (junk : nat -> vec) (o : mop) (q : vec) (u : option vec) : res jac :=
  match mo_ent o with
  | None => Err AttributeError
  | Some e => match u with
              | Some u => jacobian junk e q u
              | None => match e with OStIn _ => Err OtherError | _ => jacobian junk e q [] end
              end
  end.
Fixpoint sum_jac (junk : nat -> vec) (l : list mop) (q : vec) (u : option vec) (out : mat) : res mat :=
  match l with
  | [] => Ok out
  | o :: t => do J <- op_jacobian junk o q u;
              match J with
              | JZero => sum_jac junk t q u out
              | JMat A => if shape_is (nrows out) (ncols out) A then sum_jac junk t q u (madd out A) else Err ValueError
              end
  end.
(* jacobian(state, input_): _nonparametric.py:387-391.  (Summands of another shape are rejected; numpy would broadcast 1 x 1.) *)
Definition model_jacobian (junk : nat -> vec) (d : model) (q : vec) (u : option vec) : res mat :=
  match m_r d with None => Err TypeError | Some r => sum_jac junk (m_ops d) q u (mzeros r r) end.
(* ContinuousModel.rhs(t, state, input_func), jacobian: _nonparametric.py:932-933, 958-959 *)
Definition cont_input {A} (d : model) (t : R) (f : option (R -> A)) : res (option A) :=
  if m_hasin d then match f with None => Err TypeError | Some g => Ok (Some (g t)) end else Ok None.
Definition cont_rhs (d : model) (t : R) (state : arr) (f : option (R -> arr)) : res arr :=
  do u <- cont_input d t f; rhs d state u.
Definition cont_jacobian (junk : nat -> vec) (d : model) (t : R) (q : vec) (f : option (R -> vec)) : res mat :=
  do u <- cont_input d t f; model_jacobian junk d q u.

(* ---- DiscreteModel ----------------------------------------------------------------------------------------------------- *)
(* np.hstack of two-dimensional arrays *)
Definition hstack_r (l : list mat) : res mat :=
  match l with
  | [] => Err ValueError
  | A :: t => if forallb (fun B => nrows A =? nrows B) t then Ok (hstack l) else Err ValueError
  end.
(* U[..., :k] *)
Definition cut (k : nat) (a : arr) : arr := match a with V u => V (firstn k u) | M U => M (map (firstn k) U) end.
(* np.hstack of arrays that are all one-dimensional or all two-dimensional *)
Definition as_vecs (l : list arr) : res (list vec) := mapM (fun a => match a with V v => Ok v | M _ => Err ValueError end) l.
Definition as_mats (l : list arr) : res (list mat) := mapM (fun a => match a with M v => Ok v | V _ => Err ValueError end) l.
Definition hstack_arr (l : list arr) : res arr :=
  match l with
  | [] => Err ValueError
  | V _ :: _ => do vs <- as_vecs l; Ok (V (concat vs))
  | M _ :: _ => do ms <- as_mats l; do H <- hstack_r ms; Ok (M H)
  end.
(* stack_trajectories: _nonparametric.py:648-658 *)
Definition stack_trajectories (Qs : list mat) (Us : option (list arr)) : res (mat * mat * option arr) :=
  do S <- hstack_r (map (map (@removelast R)) Qs);
  do N <- hstack_r (map (map (@tl R)) Qs);
  match Us with
  | None => Ok (S, N, None)
  | Some us => do U <- hstack_arr (map2 (fun Q u => cut (ncols Q - 1) u) Qs us); Ok (S, N, Some U)
  end.
(* fit(states, nextstates, inputs): _nonparametric.py:708-713; slicing a one-dimensional array along axis 1 is an IndexError *)
Definition discrete_fit (X : lsx) (d : model) (states : arr) (next : option arr) (inputs : option arr) : model * res unit :=
  if m_frozen d then (d, Err NotImplementedError) else
  match (match next with
         | Some n => Ok (states, n)
         | None => match states with M Q => Ok (M (map (@removelast R) Q), M (map (@tl R) Q)) | V _ => Err IndexError end
         end) with
  | Err e => (d, Err e)
  | Ok (s, n) =>
      match inputs, s with
      | None, _ => fit X d s n None
      | Some u, M Q => fit X d s n (Some (cut (ncols Q) u))
      | Some _, V _ => (d, Err IndexError)
      end
  end.
(* predict(state0, niters, inputs): _nonparametric.py:784-826; inputs is an array or something callable *)
Inductive inputarg := UArr (u : arr) | UCall.
Fixpoint iterate (f : vec -> nat -> res vec) (n j : nat) (q : vec) : res (list vec) :=
  match n with
  | 0 => Ok []
  | S n' => do q' <- f q j; do l <- iterate f n' (S j) q'; Ok (q' :: l)
  end.
Definition rhs_vec (d : model) (q : vec) (u : option arr) : res vec :=
  do y <- rhs d (V q) u; match y with V v => Ok v | M _ => Err ValueError end.
Definition of_columns (r : nat) (cols : list vec) : mat := map (fun i => map (fun c => vget c i) cols) (seq 0 r).
Definition predict (d : model) (q0 : arr) (niters : Z) (inputs : option inputarg) : res mat :=
  do _ <- check_trained d;
  match q0, m_r d with
  | V q, Some r =>
      if negb (length q =? r) then Err DimensionalityError
      else if m_hasin d && match inputs with None => true | Some _ => false end then Err ValueError
      else if (niters <? 1)%Z then Err ValueError
      else
        let n := Z.to_nat niters in
        do cols <- (if m_hasin d then
                      match inputs with
                      | Some (UArr u) =>
                          let U := atleast_2d u in
                          if negb (is_dim (m_m d) (nrows U)) || (ncols U <? n - 1) then Err ValueError
                          else iterate (fun q j => rhs_vec d q (Some (V (colv (nrows U) U j)))) (n - 1) 0 q
                      | Some UCall => Err TypeError
                      | None => Err ValueError
                      end
                    else iterate (fun q _ => rhs_vec d q None) (n - 1) 0 q);
        Ok (of_columns r (q :: cols))
  | _, _ => Err DimensionalityError
  end.

(* ---- ==, copy(), galerkin() ------------------------------------------------------------------------------------------- *)
(* operators/_base.py:607-621 *)
Definition mop_eqb (a b : mop) : bool :=
  cls_eqb (mo_cls a) (mo_cls b) &&
  match mo_ent a, mo_ent b with None, None => true | Some x, Some y => op_eqb x y | _, _ => false end.
Fixpoint find_op (o : mop) (l : list mop) (marked : list nat) (i : nat) : option nat :=
  match l with
  | [] => None
  | b :: t => if mop_eqb o b && negb (existsb (Nat.eqb i) marked) then Some i else find_op o t marked (S i)
  end.
Fixpoint match_ops (l l' : list mop) (marked : list nat) : bool :=
  match l with
  | [] => true
  | o :: t => match find_op o l' marked 0 with Some i => match_ops t l' (i :: marked) | None => false end
  end.
Definition kind_eqb (a b : kind) : bool :=
  match a, b with KSteady, KSteady | KDiscrete, KDiscrete | KContinuous, KContinuous => true | _, _ => false end.
(* isinstance(other, self.__class__): the frozen classes are subclasses of the others *)
Definition isinst (other self : model) : bool := kind_eqb (m_kind other) (m_kind self) && (m_frozen other || negb (m_frozen self)).
Definition odim_eqb (a b : option nat) : bool :=
  match a, b with None, None => true | Some x, Some y => x =? y | _, _ => false end.
(* self.__eq__(other): models/mono/_base.py:294-314 *)
Definition dunder_eq (a b : model) : bool :=
  isinst b a && (length (m_ops a) =? length (m_ops b)) && odim_eqb (m_r a) (m_r b) && odim_eqb (m_m a) (m_m b) &&
  match_ops (m_ops a) (m_ops b) [].
(* a == b: Python asks b first when its class is a strict subclass of a's *)
Definition model_eqb (a b : model) : bool :=
  if isinst b a && negb (isinst a b) then dunder_eq b a else dunder_eq a b.

(* copy(): models/mono/_base.py:317-320; a copy of an operator is rebuilt from its entries (operators/_base.py:780-783) *)
Definition mop_copy (o : mop) : res mop :=
  match mo_ent o with
  | None => Ok o
  | Some e => do e' <- rebuild_same e (entries2 e); Ok {| mo_cls := mo_cls o; mo_ent := Some e' |}
  end.
Definition solver_of (d : model) : solverarg := match m_solver d with Some s => SObj s | None => SNone end.
Definition copy_model (d : model) : res model :=
  do l <- mapM mop_copy (m_ops d); mk_model (m_kind d) (m_frozen d) (map AOp l) (solver_of d).
(* galerkin(Vr, Wr): models/mono/_base.py:283-292 *)
Definition galerkin_model (solve : mat -> mat -> res mat) (junk : nat -> vec) (d : model) (Vr : mat) (Wr : option mat) : res model :=
  do l <- mapM (fun o => match mo_ent o with
                         | None => Ok o
                         | Some e => do g <- galerkin solve junk e Vr Wr; Ok {| mo_cls := mo_cls o; mo_ent := Some g |}
                         end) (m_ops d);
  mk_model (m_kind d) (m_frozen d) (map AOp l) SNone.

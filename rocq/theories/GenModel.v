(* GenModel.v -- models/mono/_base.py and models/mono/_nonparametric.py once more, for operators of any class: the classes
   of the library, PolynomialOperator (operators/_polynomial_operator.py) and classes a user derives from OpInfOperator
   (operators/_base.py).  A class is what its methods do.  The entries of an operator are kept as a matrix (a
   ConstantOperator's as one column, as np.column_stack sees them).  An operator carries the mark whether its entries were
   given at construction; in the code two lists of increasing indices say so (_indices_of_operators_to_infer,
   _indices_of_known_operators).  What a call that raises leaves behind is not modelled here (MonoModel.v does it for the
   classes of the library).  No proofs here. *)
From Coq Require Import ZArith String.
From Verif Require Export MonoModel.
From Verif Require PolyOpModel.
#[local] Open Scope nat_scope.
#[local] Open Scope list_scope.

(* operators/_base.py:505-793 (OpInfOperator): the methods a class provides.  oc_type: the class as seen by the test for
   duplicates, models/mono/_nonparametric.py:56-79. *)
Record ocls := {
  oc_type : nat;
  oc_inputs : bool;                                     (* has_inputs(op): operators/_base.py:41-43 *)
  oc_dim : nat -> option nat -> res nat;                (* operator_dimension(r, m) *)
  oc_block : mat -> option arr -> res mat;              (* datablock(states, inputs) *)
  oc_set : mat -> res mat;                              (* set_entries(E): the entries afterwards *)
  oc_indim : mat -> nat;                                (* input_dimension, given the entries *)
  oc_apply : mat -> arr -> option arr -> res arr }.     (* apply(state, input), given the entries *)
Record gop := { go_cls : ocls; go_ent : option mat; go_known : bool }.
Record gmodel := { gm_ops : list gop; gm_hasin : bool; gm_r : option nat; gm_m : option nat; gm_solver : option lsq }.

Definition gents (l : list gop) : list mat := flat_map (fun o => match go_ent o with Some E => [E] | None => [] end) l.
(* _check_state_dimension_consistency, _check_input_dimension_consistency: models/mono/_base.py:158-171, 192-210 *)
Definition gstate_dim (l : list gop) : res (option nat) := one_of (map nrows (gents l)).
Definition gindims (l : list gop) : list nat :=
  flat_map (fun o => match go_ent o with Some E => [oc_indim (go_cls o) E] | None => [] end) (filter (fun o => oc_inputs (go_cls o)) l).
Definition ginput_dim (l : list gop) : res (option nat) :=
  if existsb (fun o => oc_inputs (go_cls o)) l then one_of (gindims l) else Ok (Some 0).
Definition to_infer (l : list gop) : list gop := filter (fun o => negb (go_known o)) l.
Definition gintrusive (d : gmodel) : bool := forallb go_known (gm_ops d).
Definition gwith_ops (l : list gop) (d : gmodel) : gmodel :=
  {| gm_ops := l; gm_hasin := gm_hasin d; gm_r := gm_r d; gm_m := gm_m d; gm_solver := gm_solver d |}.
Definition gwith_solver (s : lsq) (d : gmodel) : gmodel :=
  {| gm_ops := gm_ops d; gm_hasin := gm_hasin d; gm_r := gm_r d; gm_m := gm_m d; gm_solver := Some s |}.

(* the constructor with operator objects and a solver object (None: the plain solver): models/mono/_base.py:33-39, 68-111,
   333-368 *)
Definition gmk (args : list (ocls * option mat)) (s : option lsq) : res gmodel :=
  let ops := map (fun a => {| go_cls := fst a; go_ent := snd a; go_known := match snd a with Some _ => true | None => false end |}) args in
  if length ops =? 0 then Err ValueError
  else if negb (length (nodup Nat.eq_dec (map (fun o => oc_type (go_cls o)) (to_infer ops))) =? length (to_infer ops)) then Err ValueError
  else do r <- gstate_dim ops; do m <- ginput_dim ops;
  Ok {| gm_ops := ops; gm_hasin := existsb (fun o => oc_inputs (go_cls o)) ops; gm_r := r; gm_m := m;
        gm_solver := if forallb go_known ops then None else Some (match s with Some s => s | None => new_plain end) |}.

(* _clear: models/mono/_base.py:113-120 *)
Definition gclear (d : gmodel) : res gmodel :=
  let ops := map (fun o => if go_known o then o else {| go_cls := go_cls o; go_ent := None; go_known := false |}) (gm_ops d) in
  do r <- gstate_dim ops; do m <- ginput_dim ops;
  Ok {| gm_ops := ops; gm_hasin := gm_hasin d; gm_r := r; gm_m := m; gm_solver := gm_solver d |}.
(* lhs - op.apply(states, inputs) for the known operators: _nonparametric.py:177-178.  (Results of another shape, which
   numpy would broadcast or reject, are rejected.) *)
Fixpoint gsubtract (l : list gop) (Q : mat) (U : option arr) (L : mat) : res mat :=
  match l with
  | [] => Ok L
  | o :: t =>
      if go_known o then
        match go_ent o with
        | None => Err AttributeError
        | Some E => do y <- oc_apply (go_cls o) E (M Q) U;
                    match y with
                    | M Y => if shape_is (nrows L) (ncols L) Y then gsubtract t Q U (msub L Y) else Err ValueError
                    | V _ => Err ValueError
                    end
        end
      else gsubtract t Q U L
  end.
(* state_dimension = n, input_dimension = n: models/mono/_base.py:179-190, 218-236 *)
Definition gset_r (n : nat) (d : gmodel) : res gmodel :=
  if forallb (fun E => nrows E =? n) (gents (gm_ops d))
  then Ok {| gm_ops := gm_ops d; gm_hasin := gm_hasin d; gm_r := Some n; gm_m := gm_m d; gm_solver := gm_solver d |}
  else Err AttributeError.
Definition gset_m (n : nat) (d : gmodel) : res gmodel :=
  if negb (gm_hasin d) && negb (n =? 0) then Err AttributeError
  else if forallb (fun m => m =? n) (gindims (gm_ops d))
  then Ok {| gm_ops := gm_ops d; gm_hasin := gm_hasin d; gm_r := gm_r d; gm_m := Some n; gm_solver := gm_solver d |}
  else Err AttributeError.
(* _process_fit_arguments: _nonparametric.py:130-180 *)
Definition gprocess (d0 : gmodel) (states lhs : arr) (inputs : option arr) : res (gmodel * mat * mat * option arr) :=
  do d1 <- gclear d0;
  let Q := atleast_2d states in
  do d2 <- match gm_r d1 with None => gset_r (nrows Q) d1 | Some _ => Ok d1 end;
  if negb (is_dim (gm_r d2) (nrows Q)) then Err DimensionalityError else
  let L := atleast_2d lhs in
  if negb (is_dim (gm_r d2) (nrows L)) then Err DimensionalityError else
  if negb (ncols L =? ncols Q) then Err DimensionalityError else
  do dU <- (if gm_hasin d2 then
              match inputs with
              | None => Err ValueError
              | Some u =>
                  let U := atleast_2d u in
                  do d3 <- match gm_m d2 with None | Some 0 => gset_m (nrows U) d2 | Some _ => Ok d2 end;
                  if negb (is_dim (gm_m d3) (nrows U)) then Err DimensionalityError else
                  if negb (ncols U =? ncols Q) then Err DimensionalityError else Ok (d3, Some (M U))
              end
            else Ok (d2, inputs));
  do L' <- gsubtract (gm_ops (fst dU)) Q (snd dU) L; Ok (fst dU, Q, L', snd dU).
(* _assemble_data_matrix: _nonparametric.py:182-219 *)
Definition gassemble (d : gmodel) (Q : mat) (U : option arr) : res mat :=
  do blocks <- mapM (fun o => do B <- oc_block (go_cls o) Q U; Ok (mT B)) (to_infer (gm_ops d));
  match blocks with [] => Err ValueError | _ => Ok (hstack blocks) end.
(* _extract_operators: _nonparametric.py:221-236 *)
Fixpoint gextract (r : nat) (m : option nat) (O : mat) (idx : nat) (l : list gop) : res (list gop) :=
  match l with
  | [] => Ok []
  | o :: t =>
      if go_known o then do t' <- gextract r m O idx t; Ok (o :: t')
      else do w <- oc_dim (go_cls o) r m;
           do E <- oc_set (go_cls o) (mcols idx (idx + w) O);
           do t' <- gextract r m O (idx + w) t;
           Ok ({| go_cls := go_cls o; go_ent := Some E; go_known := false |} :: t')
  end.
(* refit(): _nonparametric.py:260-270 *)
Definition grefit (X : lsx) (d : gmodel) : res gmodel :=
  if gintrusive d then Ok d
  else match gm_solver d, gm_r d with
       | Some s, Some r => do O <- lsq_solve X s; do l <- gextract r (gm_m d) O 0 (gm_ops d); Ok (gwith_ops l d)
       | None, _ => Err AttributeError
       | _, None => Err TypeError
       end.
(* fit(states, lhs, inputs): _nonparametric.py:238-247, 324-333 *)
Definition gfit (X : lsx) (d : gmodel) (states lhs : arr) (inputs : option arr) : res gmodel :=
  if gintrusive d then Ok d
  else do t <- gprocess d states lhs inputs;
       let '(d1, Q, L, U) := t in
       do D <- gassemble d1 Q U;
       match gm_solver d1 with
       | None => Err AttributeError
       | Some s => let '(s', x) := lsq_fit X s (M D) (M L) in do _ <- x; grefit X (gwith_solver s' d1)
       end.
(* solver.regularizer = g: the setters of lstsq/_tikhonov.py (lsq_setreg, MonoModel.v) *)
Definition gset_regularizer (g : sreg) (d : gmodel) : res gmodel :=
  match gm_solver d with
  | None => Err AttributeError
  | Some s => let '(s', x) := lsq_setreg s g in do _ <- x; Ok (gwith_solver s' d)
  end.
(* operator_matrix: _nonparametric.py:121-127 (models/mono/_base.py:383-390) *)
Definition goperator_matrix (d : gmodel) : res mat :=
  match gm_r d with
  | None => Err AttributeError
  | Some _ =>
      if gm_hasin d && match gm_m d with None => true | Some _ => false end then Err AttributeError else
      if existsb (fun o => match go_ent o with None => true | Some _ => false end) (gm_ops d) then Err AttributeError else
      match gents (to_infer (gm_ops d)) with [] => Err ValueError | Es => Ok (hstack Es) end
  end.
(* rhs(state, input_): _nonparametric.py:359-362 *)
Fixpoint gsum (l : list gop) (state : arr) (input : option arr) (out : arr) : res arr :=
  match l with
  | [] => Ok out
  | o :: t => match go_ent o with
              | None => Err AttributeError
              | Some E => do y <- oc_apply (go_cls o) E state input; do out' <- iadd out y; gsum t state input out'
              end
  end.
Definition grhs (d : gmodel) (state : arr) (input : option arr) : res arr :=
  gsum (gm_ops d) state input (emap (fun _ => 0%R) state).

(* ---- classes ---------------------------------------------------------------------------------------------------------- *)
(* models/mono/_nonparametric.py:61-79: PolynomialOperators of order up to 4 count as the dedicated classes *)
Definition type_of (c : cls) : nat :=
  match c with
  | CConst => 0 | CLin => 1 | CPoly Quadratic => 2 | CPoly Cubic => 3 | CPoly Quartic => 4 | CInp => 5 | CStIn => 6
  end.
Definition poly_type (p : nat) : nat := if p <=? 4 then p else p + 2.
(* a class of operators/_nonparametric.py *)
Definition lib_cls (c : cls) : ocls :=
  {| oc_type := type_of c;
     oc_inputs := has_inputs c;
     oc_dim := fun r m => width c (Some r) m;
     oc_block := fun Q U => op_datablock {| mo_cls := c; mo_ent := None |} Q U;
     oc_set := fun E => do o <- set_2d c E; Ok (entries2 o);
     oc_indim := fun E => match set_2d c E with Ok o => op_inputs o | Err _ => 0 end;
     oc_apply := fun E q u => match set_2d c E with Ok o => op_apply {| mo_cls := c; mo_ent := Some o |} q u | Err e => Err e end |}.
(* operators/_polynomial_operator.py, order p; set_entries is OpInfOperator's: operators/_base.py:568-570 *)
Definition poly_cls (p : nat) : ocls :=
  {| oc_type := poly_type p;
     oc_inputs := false;
     oc_dim := fun r _ => Ok (PolyOpModel.pdim p r);
     oc_block := fun Q _ => PolyOpModel.pdatablock p (M Q);
     oc_set := fun E => Ok E;
     oc_indim := fun _ => 0;
     oc_apply := fun E q _ => PolyOpModel.papply p E q |}.

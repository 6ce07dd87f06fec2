(* PGenModel.v -- models/mono/_parametric.py once more, for operators of any class: those of the library, and classes a user
   derives from OpInfOperator (GenModel.v) or from ParametricOpInfOperator (operators/_base.py).  A class is what its methods
   do.  The entries of a parametric operator, a list of arrays in the code, are kept as these arrays side by side, the form
   in which the operators are learned.  An operator carries the mark whether its entries were given at construction
   (_indices_of_operators_to_infer and _indices_of_known_operators in the code).  What a call that raises leaves behind is
   not modelled here (ParaModel.v does it for the classes of the library).  No proofs here. *)
From Coq Require Import ZArith String.
From Verif Require Export GenModel ParaModel.
#[local] Open Scope nat_scope.
#[local] Open Scope list_scope.

(* operators/_base.py:1205-1347 (ParametricOpInfOperator): the methods a class provides.  The first argument of pc_set, pc_indim and
   pc_eval is the list of training parameters of an interpolated operator (operators/_interpolate.py:150-192; there a list of
   arrays of length one is turned into a list of numbers, which is left to the class here). *)
Record pocls := {
  pc_type : nat;                                                              (* _OperatorClass *)
  pc_itp : bool;                                                              (* is_interpolated(op) *)
  pc_inputs : bool;                                                           (* has_inputs(op) *)
  pc_dim : nat -> nat -> option nat -> res nat;                               (* operator_dimension(s, r, m) *)
  pc_block : list pval -> list mat -> list (option arr) -> res mat;           (* datablock(parameters, states, inputs) *)
  pc_set : option (list pval) -> mat -> res mat;                              (* set_entries(E, fromblock=True): the entries afterwards *)
  pc_indim : option (list pval) -> mat -> nat;                                (* input_dimension, given the entries *)
  pc_eval : option (list pval) -> mat -> pval -> res (ocls * mat) }.          (* evaluate(parameter), given the entries *)
Inductive ycls := YNon (c : ocls) | YPar (c : pocls).
(* an operator handed to the constructor: class, entries, training parameters, parameter dimension *)
Record yarg := { ya_cls : ycls; ya_ent : option mat; ya_train : option (list pval); ya_p : option nat }.
Record yop := { yo_cls : ycls; yo_ent : option mat; yo_train : option (list pval); yo_p : option nat; yo_known : bool }.
Record ymodel := { ym_ops : list yop; ym_hasin : bool; ym_r : option nat; ym_m : option nat; ym_p : option nat; ym_s : option nat;
                   ym_solver : option lsq }.

Definition y_type (c : ycls) : nat := match c with YNon c => oc_type c | YPar c => pc_type c end.   (* _parametric.py:67-78 *)
Definition y_inputs (c : ycls) : bool := match c with YNon c => oc_inputs c | YPar c => pc_inputs c end.
Definition y_itp (c : ycls) : bool := match c with YNon _ => false | YPar c => pc_itp c end.
Definition y_par (c : ycls) : bool := match c with YNon _ => false | YPar _ => true end.
Definition y_indim (c : ycls) (t : option (list pval)) (E : mat) : nat := match c with YNon c => oc_indim c E | YPar c => pc_indim c t E end.
Definition yents (l : list yop) : list mat := flat_map (fun o => match yo_ent o with Some E => [E] | None => [] end) l.
Definition yw_ops (l : list yop) (d : ymodel) : ymodel :=
  {| ym_ops := l; ym_hasin := ym_hasin d; ym_r := ym_r d; ym_m := ym_m d; ym_p := ym_p d; ym_s := ym_s d; ym_solver := ym_solver d |}.
Definition yw_dims (r m : option nat) (d : ymodel) : ymodel :=
  {| ym_ops := ym_ops d; ym_hasin := ym_hasin d; ym_r := r; ym_m := m; ym_p := ym_p d; ym_s := ym_s d; ym_solver := ym_solver d |}.
Definition yw_p (p : option nat) (d : ymodel) : ymodel :=
  {| ym_ops := ym_ops d; ym_hasin := ym_hasin d; ym_r := ym_r d; ym_m := ym_m d; ym_p := p; ym_s := ym_s d; ym_solver := ym_solver d |}.
Definition yw_solver (s : lsq) (d : ymodel) : ymodel :=
  {| ym_ops := ym_ops d; ym_hasin := ym_hasin d; ym_r := ym_r d; ym_m := ym_m d; ym_p := ym_p d; ym_s := ym_s d; ym_solver := Some s |}.
Definition yw_s (n : nat) (d : ymodel) : ymodel :=
  {| ym_ops := ym_ops d; ym_hasin := ym_hasin d; ym_r := ym_r d; ym_m := ym_m d; ym_p := ym_p d; ym_s := Some n; ym_solver := ym_solver d |}.

(* _check_state_dimension_consistency, _check_input_dimension_consistency: models/mono/_base.py:158-171, 192-210 *)
Definition ystate_dim (l : list yop) : res (option nat) := one_of (map nrows (yents l)).
Definition yindims (l : list yop) : list nat :=
  flat_map (fun o => match yo_ent o with Some E => [y_indim (yo_cls o) (yo_train o) E] | None => [] end) (filter (fun o => y_inputs (yo_cls o)) l).
Definition yinput_dim (l : list yop) : res (option nat) :=
  if existsb (fun o => y_inputs (yo_cls o)) l then one_of (yindims l) else Ok (Some 0).
Definition y_infer (l : list yop) : list yop := filter (fun o => negb (yo_known o)) l.
Definition yintrusive (d : ymodel) : bool := forallb yo_known (ym_ops d).

(* _synchronize_parameter_dimensions(newdim): _parametric.py:129-164; the setter: operators/_base.py:1271-1283 *)
Definition set_p (p : nat) (o : yop) : yop :=
  if y_par (yo_cls o) then
    match yo_p o with
    | Some _ => o
    | None => {| yo_cls := yo_cls o; yo_ent := yo_ent o; yo_train := yo_train o; yo_p := Some p; yo_known := yo_known o |}
    end
  else o.
Definition ypdims (l : list yop) : list nat := somes (map (fun o => if y_par (yo_cls o) then yo_p o else None) l).
Definition ysync (newdim : option nat) (d : ymodel) : res ymodel :=
  do p0 <- one_of (ypdims (ym_ops d));
  let p := match newdim, p0 with Some n, None => Some n | _, _ => p0 end in
  if match newdim, p with Some n, Some q => negb (q =? n) | _, _ => false end then Err DimensionalityError
  else match p with
       | None => Ok (yw_p None d)
       | Some q => if (q =? 0) && existsb (fun o => y_par (yo_cls o) && match yo_p o with None => true | Some _ => false end) (ym_ops d)
                   then Err ValueError else Ok (yw_p (Some q) (yw_ops (map (set_p q) (ym_ops d)) d))
       end.

(* the constructor with operator objects and a solver object (None: the plain solver): models/mono/_base.py:33-39, 68-111,
   333-368, _parametric.py:94-121 *)
Definition yinit (a : yarg) : yop :=
  {| yo_cls := ya_cls a; yo_ent := ya_ent a; yo_train := ya_train a; yo_p := ya_p a;
     yo_known := match ya_ent a with Some _ => true | None => false end |}.
Definition ymk (args : list yarg) (s : option lsq) : res ymodel :=
  let ops := map yinit args in
  if length ops =? 0 then Err ValueError
  else if negb (length (nodup Nat.eq_dec (map (fun o => y_type (yo_cls o)) (y_infer ops))) =? length (y_infer ops)) then Err ValueError
  else do r <- ystate_dim ops; do m <- yinput_dim ops;
  ysync None {| ym_ops := ops; ym_hasin := existsb (fun o => y_inputs (yo_cls o)) ops; ym_r := r; ym_m := m; ym_p := None; ym_s := None;
                ym_solver := if forallb yo_known ops then None else Some (match s with Some s => s | None => new_plain end) |}.

(* _clear: models/mono/_base.py:113-120, operators/_base.py:1221-1224, operators/_interpolate.py:144-147 *)
Definition yclear_op (o : yop) : yop :=
  if yo_known o then o else {| yo_cls := yo_cls o; yo_ent := None; yo_train := yo_train o; yo_p := None; yo_known := false |}.
Definition yclear (d : ymodel) : res ymodel :=
  let ops := map yclear_op (ym_ops d) in
  do r <- ystate_dim ops; do m <- yinput_dim ops; Ok (yw_dims r m (yw_ops ops d)).
(* state_dimension = n, input_dimension = n: models/mono/_base.py:179-190, 218-236 *)
Definition yset_r (n : nat) (d : ymodel) : res ymodel :=
  if forallb (fun E => nrows E =? n) (yents (ym_ops d)) then Ok (yw_dims (Some n) (ym_m d) d) else Err AttributeError.
Definition yset_m (n : nat) (d : ymodel) : res ymodel :=
  if negb (ym_hasin d) && negb (n =? 0) then Err AttributeError
  else if forallb (fun m => m =? n) (yindims (ym_ops d)) then Ok (yw_dims (ym_r d) (Some n) d) else Err AttributeError.

(* _check_parametervalue_dimension: operators/_base.py:956-961; without a dimension, that of the value: _affine.py:250-251 (not stored here).
   Classes of a user are taken to do the same. *)
Definition y_fits (o : yop) (mu : pval) : bool := match yo_p o with Some p => plen mu =? p | None => true end.
(* op.evaluate(parameter), or the operator itself: _parametric.py:408-413; uncalibrated parametric operators raise
   (@requires("entries")) *)
Definition yeval (mu : pval) (o : yop) : res (ocls * option mat) :=
  match yo_cls o with
  | YNon c => Ok (c, yo_ent o)
  | YPar c => match yo_ent o with
              | None => Err AttributeError
              | Some E => if y_fits o mu then do x <- pc_eval c (yo_train o) E mu; Ok (fst x, Some (snd x)) else Err ValueError
              end
  end.
(* op.apply(states[i], inputs[i]) or op.apply(parameters[i], states[i], inputs[i]), which is evaluate(parameter).apply(...)
   (operators/_base.py:1013) *)
Definition yapply (o : yop) (mu : pval) (q : arr) (u : option arr) : res arr :=
  do x <- yeval mu o;
  match snd x with None => Err AttributeError | Some E => oc_apply (fst x) E q u end.
(* lhs[i] - op.apply(...) for the known operators: _parametric.py:240-249.  (Results of another shape, which numpy would
   broadcast or reject, are rejected.) *)
Fixpoint ysub_op (o : yop) (mus : list pval) (Qs : list mat) (Us : list (option arr)) (Zs : list mat) : res (list mat) :=
  match Zs with
  | [] => Ok []
  | Z :: Zs' =>
      match mus, Qs, Us with
      | mu :: mus', Q :: Qs', U :: Us' =>
          do y <- yapply o mu (M Q) U;
          match y with
          | M Y => if shape_is (nrows Z) (ncols Z) Y then do t <- ysub_op o mus' Qs' Us' Zs'; Ok (msub Z Y :: t) else Err ValueError
          | V _ => Err ValueError
          end
      | _, _, _ => Err IndexError
      end
  end.
Fixpoint ysubtract (l : list yop) (mus : list pval) (Qs : list mat) (Us : list (option arr)) (Zs : list mat) : res (list mat) :=
  match l with
  | [] => Ok Zs
  | o :: t => if yo_known o then do Zs' <- ysub_op o mus Qs Us Zs; ysubtract t mus Qs Us Zs' else ysubtract t mus Qs Us Zs
  end.

(* _process_fit_arguments: _parametric.py:167-251 *)
Definition yprocess (d0 : ymodel) (mus : list pval) (states lhs : list arr) (inputs : option (list arr))
    : res (ymodel * list mat * list mat * list (option arr)) :=
  do d1 <- yclear d0;
  do p <- params_dim mus;
  do d2 <- ysync (Some p) d1;
  let s := length mus in
  let Qs := map atleast_2d states in
  do d3 <- match ym_r d2 with Some _ => Ok d2 | None => match Qs with [] => Err IndexError | Q :: _ => yset_r (nrows Q) d2 end end;
  if negb (length Qs =? s) then Err DimensionalityError else
  if negb (all_rows (ym_r d3) Qs) then Err DimensionalityError else
  let Zs := map atleast_2d lhs in
  if negb (length Zs =? s) then Err DimensionalityError else
  if negb (all_rows (ym_r d3) Zs) then Err DimensionalityError else
  if negb (same_cols Zs Qs) then Err DimensionalityError else
  do dU <- (if ym_hasin d3 then
              match inputs with
              | None => Err ValueError
              | Some us =>
                  let Us := map atleast_2d us in
                  do d4 <- match ym_m d3 with
                           | None | Some 0 => match Us with [] => Err IndexError | U :: _ => yset_m (nrows U) d3 end
                           | Some _ => Ok d3
                           end;
                  if negb (length Us =? s) then Err DimensionalityError else
                  if negb (all_rows (ym_m d4) Us) then Err DimensionalityError else
                  if negb (same_cols Us Qs) then Err DimensionalityError else Ok (d4, map (fun U => Some (M U)) Us)
              end
            else Ok (d3, match inputs with None => repeat None s | Some us => map Some us end));
  do Zs' <- ysubtract (ym_ops (fst dU)) mus Qs (snd dU) Zs;
  Ok (fst dU, Qs, Zs', snd dU).

(* for op in operators: if is_interpolated(op): op.set_training_parameters(parameters): _parametric.py:277-280,
   operators/_interpolate.py:162-192 (parameters of one shape: checked by params_dim above) *)
Definition ytrain (mus : list pval) (p : nat) (o : yop) : res yop :=
  if y_itp (yo_cls o) then
    match yo_ent o, mus with
    | Some _, _ => Err AttributeError
    | None, [] => Err IndexError
    | None, _ => Ok {| yo_cls := yo_cls o; yo_ent := None; yo_train := Some mus; yo_p := Some p; yo_known := yo_known o |}
    end
  else Ok o.
(* the data block of an operator, _assemble_data_matrix: _parametric.py:253-265; zip stops at the end of the shorter list *)
Fixpoint non_blocks (c : ocls) (Qs : list mat) (Us : list (option arr)) : res (list mat) :=
  match Qs, Us with
  | Q :: Qs', U :: Us' => do D <- oc_block c Q U; do t <- non_blocks c Qs' Us'; Ok (D :: t)
  | _, _ => Ok []
  end.
Definition y_block (c : ycls) (mus : list pval) (Qs : list mat) (Us : list (option arr)) : res mat :=
  match c with
  | YNon c => do Ds <- non_blocks c Qs Us; hstack_r Ds
  | YPar c => pc_block c mus Qs Us
  end.
Definition yassemble (l : list yop) (mus : list pval) (Qs : list mat) (Us : list (option arr)) : res mat :=
  do blocks <- mapM (fun o => do B <- y_block (yo_cls o) mus Qs Us; Ok (mT B)) (y_infer l);
  hstack_r blocks.
(* _extract_operators: _parametric.py:287-302 *)
Definition y_dim (c : ycls) (s r : nat) (m : option nat) : res nat := match c with YNon c => oc_dim c r m | YPar c => pc_dim c s r m end.
Definition y_set (o : yop) (E : mat) : res mat := match yo_cls o with YNon c => oc_set c E | YPar c => pc_set c (yo_train o) E end.
Definition with_ent (E : mat) (o : yop) : yop :=
  {| yo_cls := yo_cls o; yo_ent := Some E; yo_train := yo_train o; yo_p := yo_p o; yo_known := yo_known o |}.
Fixpoint yextract (s r : nat) (m : option nat) (O : mat) (idx : nat) (l : list yop) : res (list yop) :=
  match l with
  | [] => Ok []
  | o :: t =>
      if yo_known o then do t' <- yextract s r m O idx t; Ok (o :: t')
      else do w <- y_dim (yo_cls o) s r m;
           do E <- y_set o (mcols idx (idx + w) O);
           do t' <- yextract s r m O (idx + w) t;
           Ok (with_ent E o :: t')
  end.
(* refit(): _parametric.py:304-324 *)
Definition yrefit (X : lsx) (d : ymodel) : res ymodel :=
  if yintrusive d then Ok d
  else match ym_solver d with
       | None => Err AttributeError
       | Some s => do O <- lsq_solve X s;
                   match ym_s d, ym_r d with
                   | Some n, Some r => do l <- yextract n r (ym_m d) O 0 (ym_ops d); Ok (yw_ops l d)
                   | _, _ => Err TypeError
                   end
       end.
(* fit(parameters, states, lhs, inputs): _parametric.py:267-285, 384-392 *)
Definition yfit (X : lsx) (d : ymodel) (mus : list pval) (states lhs : list arr) (inputs : option (list arr)) : res ymodel :=
  if yintrusive d then Ok d
  else do t <- yprocess d mus states lhs inputs;
       let '(d1, Qs, Zs, Us) := t in
       do p <- params_dim mus;
       do l <- mapM (ytrain mus p) (ym_ops d1);
       do D <- yassemble l mus Qs Us;
       do L <- hstack_r Zs;
       match ym_solver d1 with
       | None => Err AttributeError
       | Some s => let '(s', x) := lsq_fit X s (M D) (M L) in
                   do _ <- x; yrefit X (yw_s (length mus) (yw_solver s' (yw_ops l d1)))
       end.
(* solver.regularizer = g *)
Definition yset_regularizer (g : sreg) (d : ymodel) : res ymodel :=
  match ym_solver d with
  | None => Err AttributeError
  | Some s => let '(s', x) := lsq_setreg s g in do _ <- x; Ok (yw_solver s' d)
  end.
(* evaluate(parameter): _parametric.py:395-413; rhs(parameter, state, input_): _parametric.py:449 *)
Definition yevaluate (d : ymodel) (mu : pval) : res gmodel := do l <- mapM (yeval mu) (ym_ops d); gmk l None.
Definition yrhs (d : ymodel) (mu : pval) (q : arr) (u : option arr) : res arr := do e <- yevaluate d mu; grhs e q u.

(* ParaModel.v -- models/mono/_parametric.py: ParametricDiscreteModel and ParametricContinuousModel.  Operators are those of
   MonoModel.v (non-parametric) and ParamModel.v (affine, interpolated).  The objects of a model are its own (no aliases).
   PolynomialOperator, warnings, printing and save/load are not modelled.  No proofs here. *)
From Coq Require Import ZArith.
From Verif Require Export ParamModel MonoModel.
#[local] Open Scope nat_scope.

Inductive pop := PMono (o : mop) | PAff (a : aff) | PItp (t : itp).
(* scipy: what the solvers and the interpolated operators use *)
Record pext := { px_l : lsx; px_cubic : iclass; px_linnd : iclass }.

Definition pcls (o : pop) : cls := match o with PMono o => mo_cls o | PAff a => a_cls a | PItp t => i_cls t end.
(* the entries: one array, or a list of arrays *)
Definition pentries (o : pop) : option (list op) :=
  match o with
  | PMono o => match mo_ent o with Some e => Some [e] | None => None end
  | PAff a => a_entries a
  | PItp t => i_entries t
  end.
Definition puncal (o : pop) : bool := match pentries o with None => true | Some _ => false end.   (* operators/_base.py:1364-1366 *)
Definition ptakes (o : pop) : bool := has_inputs (pcls o).
(* state_dimension: operators/_base.py:1252-1256; input_dimension: operators/_affine.py, _interpolate.py (entries[0]) *)
Definition prows (o : pop) : option nat := match pentries o with Some (e :: _) => Some (op_rows e) | _ => None end.
Definition pinputs (o : pop) : option nat := match pentries o with Some (e :: _) => Some (op_inputs e) | _ => None end.
(* parameter_dimension; only parametric operators have one *)
Definition is_param (o : pop) : bool := match o with PMono _ => false | _ => true end.
Definition pdim (o : pop) : option nat := match o with PMono _ => None | PAff a => a_pdim a | PItp t => i_pdim t end.
Definition with_pdim (p : nat) (o : pop) : pop :=
  match o with
  | PMono _ => o
  | PAff a => PAff {| a_cls := a_cls a; a_theta := a_theta a; a_nterms := a_nterms a; a_pdim := Some p; a_entries := a_entries a |}
  | PItp t => PItp {| i_cls := i_cls t; i_pdim := Some p; i_params := i_params t; i_entries := i_entries t; i_interp := i_interp t; i_iclass := i_iclass t |}
  end.
(* _clear(): operators/_base.py:544-552, 1221-1224, operators/_interpolate.py:144-147 *)
Definition pclear (o : pop) : pop :=
  match o with
  | PMono o => PMono (clear_op o)
  | PAff a => PAff {| a_cls := a_cls a; a_theta := a_theta a; a_nterms := a_nterms a; a_pdim := None; a_entries := None |}
  | PItp t => PItp (i_clear t)
  end.
Definition somes (l : list (option nat)) : list nat := flat_map (fun x => match x with Some a => [a] | None => [] end) l.

Record pmodel := { pm_kind : kind; pm_ops : list pop; pm_infer : list nat; pm_known : list nat; pm_hasin : bool; pm_r : option nat;
                   pm_m : option nat; pm_p : option nat; pm_s : option nat; pm_intrusive : bool; pm_solver : option lsq }.
Definition pw_ops (l : list pop) (d : pmodel) : pmodel :=
  {| pm_kind := pm_kind d; pm_ops := l; pm_infer := pm_infer d; pm_known := pm_known d; pm_hasin := pm_hasin d; pm_r := pm_r d;
     pm_m := pm_m d; pm_p := pm_p d; pm_s := pm_s d; pm_intrusive := pm_intrusive d; pm_solver := pm_solver d |}.
Definition pw_r (r : option nat) (d : pmodel) : pmodel :=
  {| pm_kind := pm_kind d; pm_ops := pm_ops d; pm_infer := pm_infer d; pm_known := pm_known d; pm_hasin := pm_hasin d; pm_r := r;
     pm_m := pm_m d; pm_p := pm_p d; pm_s := pm_s d; pm_intrusive := pm_intrusive d; pm_solver := pm_solver d |}.
Definition pw_m (m : option nat) (d : pmodel) : pmodel :=
  {| pm_kind := pm_kind d; pm_ops := pm_ops d; pm_infer := pm_infer d; pm_known := pm_known d; pm_hasin := pm_hasin d; pm_r := pm_r d;
     pm_m := m; pm_p := pm_p d; pm_s := pm_s d; pm_intrusive := pm_intrusive d; pm_solver := pm_solver d |}.
Definition pw_p (p : option nat) (d : pmodel) : pmodel :=
  {| pm_kind := pm_kind d; pm_ops := pm_ops d; pm_infer := pm_infer d; pm_known := pm_known d; pm_hasin := pm_hasin d; pm_r := pm_r d;
     pm_m := pm_m d; pm_p := p; pm_s := pm_s d; pm_intrusive := pm_intrusive d; pm_solver := pm_solver d |}.
Definition pw_s (s : option nat) (d : pmodel) : pmodel :=
  {| pm_kind := pm_kind d; pm_ops := pm_ops d; pm_infer := pm_infer d; pm_known := pm_known d; pm_hasin := pm_hasin d; pm_r := pm_r d;
     pm_m := pm_m d; pm_p := pm_p d; pm_s := s; pm_intrusive := pm_intrusive d; pm_solver := pm_solver d |}.
Definition pw_solver (s : option lsq) (d : pmodel) : pmodel :=
  {| pm_kind := pm_kind d; pm_ops := pm_ops d; pm_infer := pm_infer d; pm_known := pm_known d; pm_hasin := pm_hasin d; pm_r := pm_r d;
     pm_m := pm_m d; pm_p := pm_p d; pm_s := pm_s d; pm_intrusive := pm_intrusive d; pm_solver := s |}.
Definition pseq {A B} (x : pmodel * res A) (f : pmodel -> A -> pmodel * res B) : pmodel * res B :=
  match x with (d, Ok a) => f d a | (d, Err e) => (d, Err e) end.

(* _check_state_dimension_consistency, _check_input_dimension_consistency: models/mono/_base.py:158-171, 192-210 *)
Definition pstate_dim (l : list pop) : res (option nat) := one_of (somes (map prows l)).
Definition pinput_dim (l : list pop) : res (option nat) :=
  match filter ptakes l with [] => Ok (Some 0) | l' => one_of (somes (map pinputs l')) end.

(* _synchronize_parameter_dimensions(newdim): _parametric.py:129-164 *)
Definition psync (newdim : option nat) (d : pmodel) : pmodel * res unit :=
  match one_of (somes (map pdim (pm_ops d))) with
  | Err e => (d, Err e)
  | Ok p =>
      let p' := match newdim with None => p | Some n => match p with None => Some n | Some _ => p end end in
      if match newdim, p' with Some n, Some q => negb (q =? n) | _, _ => false end then (d, Err DimensionalityError)
      else match p' with
           | None => (pw_p None d, Ok tt)
           | Some q => (pw_p (Some q) (pw_ops (map (fun o => match pdim o with None => with_pdim q o | Some _ => o end) (pm_ops d)) d), Ok tt)
           end
  end.

(* the constructor: models/mono/_base.py:33-39, 73-111, 333-368, _parametric.py:94-121.  These models have no operator
   abbreviations: a string raises TypeError. *)
Inductive parg := POp (o : pop) | POther.
Definition presolve (a : parg) : res pop := match a with POp o => Ok o | POther => Err TypeError end.
Definition pindices (p : pop -> bool) (l : list pop) : list nat :=
  filter (fun i => match nth_error l i with Some o => p o | None => false end) (seq 0 (length l)).
Definition pset_solver (a : solverarg) (d : pmodel) : pmodel * res unit :=
  if pm_intrusive d then (pw_solver None d, Ok tt)
  else match a with
       | SNone => (pw_solver (Some new_plain) d, Ok tt)
       | SNum x => if Req_EM_T x 0 then (pw_solver (Some new_plain) d, Ok tt)
                   else if Rlt_dec 0 x then (pw_solver (Some (LL2 {| l2_reg := Some x; l2_pre := None |})) d, Ok tt)
                   else (d, Err ValueError)
       | SObj s => (pw_solver (Some s) d, Ok tt)
       | SClass => (d, Err TypeError)
       end.
Definition pmk_model (k : kind) (args : list parg) (s : solverarg) : res pmodel :=
  match args with
  | [] => Err ValueError
  | _ =>
      do ops <- mapM presolve args;
      if duplicates (map pcls (filter puncal ops)) then Err ValueError else
      do r <- pstate_dim ops; do m <- pinput_dim ops;
      let toinfer := pindices puncal ops in
      let d := {| pm_kind := k; pm_ops := ops; pm_infer := toinfer; pm_known := pindices (fun o => negb (puncal o)) ops;
                  pm_hasin := existsb ptakes ops; pm_r := r; pm_m := m; pm_p := None; pm_s := None;
                  pm_intrusive := length toinfer =? 0; pm_solver := None |} in
      match pseq (psync None d) (fun d _ => pset_solver s d) with (d, Ok _) => Ok d | (_, Err e) => Err e end
  end.

(* state_dimension = r, input_dimension = m: models/mono/_base.py:179-190, 218-236 *)
Definition pset_r (r : nat) (d : pmodel) : pmodel * res unit :=
  if forallb (Nat.eqb r) (somes (map prows (pm_ops d))) then (pw_r (Some r) d, Ok tt) else (d, Err AttributeError).
Definition pset_m (m : nat) (d : pmodel) : pmodel * res unit :=
  if negb (pm_hasin d) && negb (m =? 0) then (d, Err AttributeError)
  else if forallb (Nat.eqb m) (somes (map pinputs (filter ptakes (pm_ops d)))) then (pw_m (Some m) d, Ok tt) else (d, Err AttributeError).
(* _clear: models/mono/_base.py:113-120 *)
Definition pclear_ops (ix : list nat) (l : list pop) : list pop :=
  fold_left (fun l i => match nth_error l i with Some o => upd i (pclear o) l | None => l end) ix l.
Definition pclear_model (d : pmodel) : pmodel * res unit :=
  let d1 := pw_ops (pclear_ops (pm_infer d) (pm_ops d)) d in
  match pstate_dim (pm_ops d1) with
  | Err e => (d1, Err e)
  | Ok r => let d2 := pw_r r d1 in
            match pinput_dim (pm_ops d2) with Err e => (d2, Err e) | Ok m => (pw_m m d2, Ok tt) end
  end.

(* np.shape(parameters): one axis for numbers (and for an empty list), two for arrays of one length; otherwise ValueError *)
Definition params_dim (ps : list pval) : res nat :=
  match ps with
  | [] => Ok 1
  | p0 :: t => if forallb (fun p => (pndim p =? pndim p0) && (plen p =? plen p0)) t then Ok (plen p0) else Err ValueError
  end.
(* op.evaluate(parameter) for a parametric operator; a non-parametric one is itself (_parametric.py:410) *)
Definition pop_eval (o : pop) (mu : pval) : pop * res mop :=
  match o with
  | PMono o => (PMono o, Ok o)
  | PAff a => let '(a', x) := aff_evaluate a mu in (PAff a', do e <- x; Ok {| mo_cls := a_cls a; mo_ent := Some e |})
  | PItp t => (o, do e <- i_evaluate t mu; Ok {| mo_cls := i_cls t; mo_ent := Some e |})
  end.
Definition nth_r {A} (l : list A) (i : nat) : res A := match nth_error l i with Some a => Ok a | None => Err IndexError end.

(* lhs[i] - op.apply(parameters[i], states[i], inputs[i]): _parametric.py:240-249.  apply may set the parameter dimension of an
   affine operator: it is set already here (psync) *)
Fixpoint psubtract1 (o : pop) (mus : list pval) (Qs : list mat) (Us : list (option arr)) (Zs : list mat) (i : nat) : res (list mat) :=
  match Zs with
  | [] => Ok []
  | Z :: Zs' =>
      do Q <- nth_r Qs i; do U <- nth_r Us i;
      do e <- match o with PMono o => Ok o | _ => do mu <- nth_r mus i; snd (pop_eval o mu) end;
      do y <- op_apply e (M Q) U;
      match y with
      | M Y => if shape_is (nrows Z) (ncols Z) Y then do rest <- psubtract1 o mus Qs Us Zs' (S i); Ok (msub Z Y :: rest) else Err ValueError
      | V _ => Err ValueError
      end
  end.
Fixpoint psubtract (l : list pop) (ix : list nat) (mus : list pval) (Qs : list mat) (Us : list (option arr)) (Zs : list mat) : res (list mat) :=
  match ix with
  | [] => Ok Zs
  | i :: t => do o <- nth_r l i; do Zs' <- psubtract1 o mus Qs Us Zs 0; psubtract l t mus Qs Us Zs'
  end.

Definition all_rows (r : option nat) (l : list mat) : bool := forallb (fun A => is_dim r (nrows A)) l.
Definition same_cols (l l' : list mat) : bool := (length l =? length l') && forallb (fun p => ncols (fst p) =? ncols (snd p)) (combine l l').
(* _process_fit_arguments: _parametric.py:172-251 *)
Definition pprocess (d : pmodel) (mus : list pval) (states lhs : list arr) (inputs : option (list arr)) : pmodel * res (list mat * list mat * list (option arr)) :=
  pseq (pclear_model d) (fun d _ =>
  pseq (match params_dim mus with Ok p => psync (Some p) d | Err e => (d, Err e) end) (fun d _ =>
  let s := length mus in
  let Qs := map atleast_2d states in
  pseq (match pm_r d with
        | Some _ => (d, Ok tt)
        | None => match Qs with [] => (d, Err IndexError) | Q :: _ => pset_r (nrows Q) d end
        end) (fun d _ =>
  if negb (length Qs =? s) then (d, Err DimensionalityError) else
  if negb (all_rows (pm_r d) Qs) then (d, Err DimensionalityError) else
  let Zs := map atleast_2d lhs in
  if negb (length Zs =? s) then (d, Err DimensionalityError) else
  if negb (all_rows (pm_r d) Zs) then (d, Err DimensionalityError) else
  if negb (same_cols Zs Qs) then (d, Err DimensionalityError) else
  pseq (if pm_hasin d then
          match inputs with
          | None => (d, Err ValueError)
          | Some us =>
              let Us := map atleast_2d us in
              pseq (match pm_m d with
                    | None | Some 0 => match Us with [] => (d, Err IndexError) | U :: _ => pset_m (nrows U) d end
                    | Some _ => (d, Ok tt)
                    end) (fun d _ =>
              if negb (length Us =? s) then (d, Err DimensionalityError) else
              if negb (all_rows (pm_m d) Us) then (d, Err DimensionalityError) else
              if negb (same_cols Us Qs) then (d, Err DimensionalityError) else (d, Ok (map (fun U => Some (M U)) Us)))
          end
        else (d, Ok (match inputs with None => repeat None s | Some us => map Some us end))) (fun d Us =>
  (d, do Zs' <- psubtract (pm_ops d) (pm_known d) mus Qs Us Zs; Ok (Qs, Zs', Us)))))).

(* _assemble_data_matrix: _parametric.py:253-265 *)
Definition uarr (u : option arr) : mat := match u with Some a => atleast_2d a | None => [] end.
Fixpoint mono_blocks (o : mop) (Qs : list mat) (Us : list (option arr)) : res (list mat) :=
  match Qs, Us with
  | Q :: Qs', U :: Us' => do D <- op_datablock o Q U; do rest <- mono_blocks o Qs' Us'; Ok (D :: rest)
  | _, _ => Ok []
  end.
Definition pop_datablock (o : pop) (mus : list pval) (Qs : list mat) (Us : list (option arr)) : res mat :=
  match o with
  | PMono o => do Ds <- mono_blocks o Qs Us; match Ds with [] => Err ValueError | _ => Ok (hstack Ds) end
  | PAff a => aff_datablock a mus Qs (map uarr Us)
  | PItp t => i_datablock (i_cls t) mus Qs (map uarr Us)
  end.
Definition passemble (d : pmodel) (mus : list pval) (Qs : list mat) (Us : list (option arr)) : res mat :=
  do blocks <- mapM (fun i => do o <- nth_r (pm_ops d) i; do B <- pop_datablock o mus Qs Us; Ok (mT B)) (pm_infer d);
  hstack_r blocks.

(* for op in operators: if is_interpolated(op): op.set_training_parameters(parameters): _parametric.py:278-280 *)
Fixpoint set_training (mus : list pval) (l : list pop) : list pop * res unit :=
  match l with
  | [] => ([], Ok tt)
  | PItp t :: l' => match i_set_params t mus with
                    | Err e => (PItp t :: l', Err e)
                    | Ok t' => let '(l2, x) := set_training mus l' in (PItp t' :: l2, x)
                    end
  | o :: l' => let '(l2, x) := set_training mus l' in (o :: l2, x)
  end.

(* operator_dimension(s, r, m) *)
Definition pwidth (o : pop) (s r m : option nat) : res nat :=
  do w <- width (pcls o) r m;
  match o with
  | PMono _ => Ok w
  | PAff a => Ok (a_nterms a * w)
  | PItp _ => match s with Some s => Ok (s * w) | None => Err TypeError end
  end.
(* op.set_entries(E, fromblock=True), or set_entries(E) *)
Definition pop_set (X : pext) (o : pop) (E : mat) : pop * res unit :=
  match o with
  | PMono o => keep (PMono o) (fun e => PMono {| mo_cls := mo_cls o; mo_ent := Some e |}) (set_2d (mo_cls o) E)
  | PAff a => keep (PAff a) PAff (aff_set_block a E)
  | PItp t => wrap PItp (i_set_block (px_cubic X) (px_linnd X) t E)
  end.
(* _extract_operators: _parametric.py:287-302 *)
Fixpoint pextract (X : pext) (s r m : option nat) (O : mat) (idx : nat) (ix : list nat) (l : list pop) : list pop * res unit :=
  match ix with
  | [] => (l, Ok tt)
  | i :: t =>
      match nth_error l i with
      | None => (l, Err IndexError)
      | Some o =>
          match pwidth o s r m with
          | Err e => (l, Err e)
          | Ok w => match pop_set X o (mcols idx (idx + w) O) with
                    | (o', Err e) => (upd i o' l, Err e)
                    | (o', Ok _) => pextract X s r m O (idx + w) t (upd i o' l)
                    end
          end
      end
  end.

(* _fit_solver: _parametric.py:267-285 *)
Definition pfit_solver (X : pext) (d : pmodel) (mus : list pval) (states lhs : list arr) (inputs : option (list arr)) : pmodel * res unit :=
  pseq (pprocess d mus states lhs inputs) (fun d t =>
  let '(Qs, Zs, Us) := t in
  let '(l, x) := set_training mus (pm_ops d) in
  let d := pw_ops l d in
  match x with
  | Err e => (d, Err e)
  | Ok _ =>
      match passemble d mus Qs Us with
      | Err e => (d, Err e)
      | Ok D => match hstack_r Zs with
                | Err e => (d, Err e)
                | Ok Z => match pm_solver d with
                          | None => (d, Err AttributeError)
                          | Some s => let '(s', x) := lsq_fit (px_l X) s (M D) (M Z) in
                                      let d := pw_solver (Some s') d in
                                      match x with Ok _ => (pw_s (Some (length mus)) d, Ok tt) | Err e => (d, Err e) end
                          end
                end
      end
  end).
(* refit, fit: _parametric.py:304-324, 384-392 *)
Definition prefit (X : pext) (d : pmodel) : pmodel * res unit :=
  if pm_intrusive d then (d, Ok tt)
  else match pm_solver d with
       | None => (d, Err AttributeError)
       | Some s => match lsq_solve (px_l X) s with
                   | Err e => (d, Err e)
                   | Ok Oh => let '(l, x) := pextract X (pm_s d) (pm_r d) (pm_m d) Oh 0 (pm_infer d) (pm_ops d) in (pw_ops l d, x)
                   end
       end.
Definition pfit (X : pext) (d : pmodel) (mus : list pval) (states lhs : list arr) (inputs : option (list arr)) : pmodel * res unit :=
  if pm_intrusive d then (d, Ok tt) else pseq (pfit_solver X d mus states lhs inputs) (fun d _ => prefit X d).
(* ParametricDiscreteModel.fit: _parametric.py:593-598 *)
Definition pdiscrete_fit (X : pext) (d : pmodel) (mus : list pval) (states : list mat) (next : option (list arr)) (inputs : option (list arr)) : pmodel * res unit :=
  let '(ss, ns) := match next with
                   | Some n => (states, n)
                   | None => (map (map (@removelast R)) states, map (fun Q => M (map (@tl R) Q)) states)
                   end in
  pfit X d mus (map M ss) ns (match inputs with None => None | Some us => Some (map2 (fun u Q => cut (ncols Q) u) us ss) end).

(* evaluate(parameter): _parametric.py:408-413; the new model has no solver (frozen class) *)
Fixpoint peval_ops (l : list pop) (mu : pval) : list pop * res (list mop) :=
  match l with
  | [] => ([], Ok [])
  | o :: t => let '(o', x) := pop_eval o mu in
              match x with
              | Err e => (o' :: t, Err e)
              | Ok e => let '(t', y) := peval_ops t mu in (o' :: t', do es <- y; Ok (e :: es))
              end
  end.
Definition pevaluate (d : pmodel) (mu : pval) : pmodel * res model :=
  let '(l, x) := peval_ops (pm_ops d) mu in
  (pw_ops l d, do ops <- x; mk_model (pm_kind d) true (map AOp ops) SNone).
(* rhs, jacobian, predict: _parametric.py:449, 486, 506 *)
Definition prhs (d : pmodel) (mu : pval) (q : arr) (u : option arr) : res arr := do e <- snd (pevaluate d mu); rhs e q u.
Definition pcont_rhs (d : pmodel) (mu : pval) (t : R) (q : arr) (f : option (R -> arr)) : res arr := do e <- snd (pevaluate d mu); cont_rhs e t q f.
Definition pjacobian (junk : nat -> vec) (d : pmodel) (mu : pval) (q : vec) (u : option vec) : res mat := do e <- snd (pevaluate d mu); model_jacobian junk e q u.
Definition ppredict (d : pmodel) (mu : pval) (q0 : arr) (n : Z) (inputs : option inputarg) : res mat := do e <- snd (pevaluate d mu); predict e q0 n inputs.

(* ---- InterpDiscreteModel, InterpContinuousModel (_parametric.py:1010-1320): all operators are interpolated ---------------- *)
Record imodel := { im_base : pmodel; im_sub : option (list model); im_params : option (list pval) }.
Definition iparg_ok (a : parg) : bool := match a with POp (PItp _) => true | _ => false end.
Definition imk_model (k : kind) (args : list parg) (s : solverarg) : res imodel :=
  if negb (forallb iparg_ok args) then Err TypeError
  else do d <- pmk_model k args s; Ok {| im_base := d; im_sub := None; im_params := None |}.
(* op._OperatorClass(op.entries[i] if op.entries is not None else None): _parametric.py:1145-1150 *)
Definition sub_op (i : nat) (o : pop) : res mop :=
  match pentries o with
  | None => Ok {| mo_cls := pcls o; mo_ent := None |}
  | Some es => do e <- nth_r es i; Ok {| mo_cls := pcls o; mo_ent := Some e |}
  end.
Definition sub_model (X : pext) (d : pmodel) (i : nat) (Q Z : mat) (U : option arr) : res model :=
  do ops <- mapM (sub_op i) (pm_ops d);
  do mi <- mk_model (pm_kind d) false (map AOp ops) (match pm_solver d with Some s => SObj s | None => SNone end);
  match fit_solver (px_l X) mi (M Q) (M Z) U with (mi', Ok _) => Ok mi' | (_, Err e) => Err e end.
Fixpoint sub_models (X : pext) (d : pmodel) (i : nat) (Qs Zs : list mat) (Us : list (option arr)) (n : nat) : res (list model) :=
  match n with
  | 0 => Ok []
  | S n' => do Q <- nth_r Qs i; do Z <- nth_r Zs i; do U <- nth_r Us i;
            do mi <- sub_model X d i Q Z U; do rest <- sub_models X d (S i) Qs Zs Us n'; Ok (mi :: rest)
  end.
(* _fit_solver: _parametric.py:1129-1162.  (solver.copy() of an intrusive model cannot happen: fit() returns before.) *)
Definition ifit_solver (X : pext) (d : imodel) (mus : list pval) (states lhs : list arr) (inputs : option (list arr)) : imodel * res unit :=
  let '(b, x) := pprocess (im_base d) mus states lhs inputs in
  match x with
  | Err e => ({| im_base := b; im_sub := im_sub d; im_params := im_params d |}, Err e)
  | Ok (Qs, Zs, Us) =>
      match sub_models X b 0 Qs Zs Us (length mus) with
      | Err e => ({| im_base := b; im_sub := im_sub d; im_params := im_params d |}, Err e)
      | Ok subs => ({| im_base := b; im_sub := Some subs; im_params := Some mus |}, Ok tt)
      end
  end.
(* refit(): _parametric.py:1164-1182 *)
Fixpoint refit_all (X : pext) (l : list model) : list model * res unit :=
  match l with
  | [] => ([], Ok tt)
  | mi :: t => match refit (px_l X) mi with
               | (mi', Err e) => (mi' :: t, Err e)
               | (mi', Ok _) => let '(t', x) := refit_all X t in (mi' :: t', x)
               end
  end.
(* [mdl.operators[ell].entries for mdl in submodels]; an operator without entries gives None, which set_entries rejects *)
Definition sub_entries (ell : nat) (mi : model) : res mat :=
  do o <- nth_r (m_ops mi) ell; match mo_ent o with Some e => Ok (entries2 e) | None => Err ValueError end.
Definition reset_op (X : pext) (mus : list pval) (subs : list model) (ell : nat) (o : pop) : pop * res unit :=
  match o with
  | PItp t =>
      match i_set_params (i_clear t) mus with
      | Err e => (PItp (i_clear t), Err e)
      | Ok t1 => match mapM (sub_entries ell) subs with
                 | Err e => (PItp t1, Err e)
                 | Ok Es => wrap PItp (i_set (px_cubic X) (px_linnd X) t1 Es)
                 end
      end
  | o => (o, Err AttributeError)
  end.
Fixpoint reset_ops (X : pext) (mus : list pval) (subs : list model) (ell : nat) (l : list pop) : list pop * res unit :=
  match l with
  | [] => ([], Ok tt)
  | o :: t => match reset_op X mus subs ell o with
              | (o', Err e) => (o' :: t, Err e)
              | (o', Ok _) => let '(t', x) := reset_ops X mus subs (S ell) t in (o' :: t', x)
              end
  end.
Definition irefit (X : pext) (d : imodel) : imodel * res unit :=
  match im_sub d, im_params d with
  | Some subs, Some mus =>
      let '(subs', x) := refit_all X subs in
      let d1 := {| im_base := im_base d; im_sub := Some subs'; im_params := Some mus |} in
      match x with
      | Err e => (d1, Err e)
      | Ok _ => let '(l, y) := reset_ops X mus subs' 0 (pm_ops (im_base d)) in
                ({| im_base := pw_ops l (im_base d); im_sub := Some subs'; im_params := Some mus |}, y)
      end
  | _, _ => (d, Err RuntimeError)
  end.
Definition ifit (X : pext) (d : imodel) (mus : list pval) (states lhs : list arr) (inputs : option (list arr)) : imodel * res unit :=
  if pm_intrusive (im_base d) then (d, Ok tt)
  else match ifit_solver X d mus states lhs inputs with (d', Ok _) => irefit X d' | x => x end.

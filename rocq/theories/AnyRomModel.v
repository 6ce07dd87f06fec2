(* AnyRomModel.v -- roms/_base.py, roms/_nonparametric.py and roms/_parametric.py for a transformer, a basis and a model of
   any class.  Other than in RomModel.v, the objects after a call that raises are modelled too.  Methods other than fit()
   and fit_transform() are taken to leave their objects alone; arrays are values (inplace=False).  No proofs here. *)
From Coq Require Import ZArith String.
From Verif Require Export RomModel.
#[local] Open Scope nat_scope.
#[local] Open Scope list_scope.

(* what a ROM asks a transformer (pre/_base.py:66-196), a basis (basis/_base.py:62-186) and a model.
   A call that changes its object returns the object after it, also if it raises. *)
Record tclass := {
  tobj : Type;
  ct_fit : tobj -> arr -> tobj * res unit;                       (* fit(states) *)
  ct_fit_transform : tobj -> arr -> tobj * res arr;              (* fit_transform(states) *)
  ct_transform : tobj -> arr -> res arr;
  ct_ddts : tobj -> arr -> res arr;                              (* transform_ddts(ddts) *)
  ct_inverse : tobj -> arr -> option locsel -> res arr }.        (* inverse_transform(states, locs) *)
Record bclass := {
  bobj : Type;
  cb_fit : bobj -> arr -> bobj * res unit;
  cb_compress : bobj -> arr -> res arr;
  cb_decompress : bobj -> arr -> option locsel -> res arr }.
(* A: the further arguments of predict(); for a parametric model this includes the parameter *)
Record mclass (A : Type) := {
  mobj : Type;
  cm_cont : bool;                                                (* is_continuous(model): models/_utils.py:25-30 *)
  cm_hasin : mobj -> bool;                                       (* model._has_inputs *)
  cm_predict : mobj -> A -> arr -> res arr }.
Arguments mobj {A}. Arguments cm_cont {A}. Arguments cm_hasin {A}. Arguments cm_predict {A}.

Record arom (T : tclass) (B : bclass) {A} (D : mclass A) := {
  a_lift : option lifter; a_tf : option (tobj T); a_basis : option (bobj B); a_ddt : option ddter; a_model : mobj D }.
Arguments a_lift {T B A D}. Arguments a_tf {T B A D}. Arguments a_basis {T B A D}. Arguments a_ddt {T B A D}. Arguments a_model {T B A D}.

(* a call that changes an object, then the rest *)
Definition sbind {S A B} (x : S * res A) (k : S -> A -> S * res B) : S * res B :=
  match snd x with Ok a => k (fst x) a | Err e => (fst x, Err e) end.

Section Any.
  Context (T : tclass) (B : bclass) {A : Type} (D : mclass A).
  Notation rom := (arom T B D).
  Definition with_tf (r : rom) (t : tobj T) : rom := {| a_lift := a_lift r; a_tf := Some t; a_basis := a_basis r; a_ddt := a_ddt r; a_model := a_model r |}.
  Definition with_basis (r : rom) (b : bobj B) : rom := {| a_lift := a_lift r; a_tf := a_tf r; a_basis := Some b; a_ddt := a_ddt r; a_model := a_model r |}.
  Definition with_model (r : rom) (d : mobj D) : rom := {| a_lift := a_lift r; a_tf := a_tf r; a_basis := a_basis r; a_ddt := a_ddt r; a_model := d |}.
  (* __init__: _base.py:43-101 *)
  Definition mk_arom (d : mobj D) (lf : option lifter) (t : option (tobj T)) (b : option (bobj B)) (est : option ddter) : rom :=
    {| a_lift := lf; a_tf := t; a_basis := b; a_ddt := if cm_cont D then est else None; a_model := d |}.

  (* encode(states, lhs, fit_transformer, fit_basis): _base.py:195-228 *)
  Definition a_lifting (r : rom) (a : arr) (lhs : option arr) : res (arr * option arr) :=
    match a_lift r with
    | None => Ok (a, lhs)
    | Some f => do z <- opt_map (fun z => if cm_cont D then lf_ddts f a z else lf_lift f z) lhs;
                do b <- lf_lift f a; Ok (b, z)
    end.
  Definition a_transforming (r : rom) (ft : bool) (a : arr) (lhs : option arr) : rom * res (arr * option arr) :=
    match a_tf r with
    | None => (r, Ok (a, lhs))
    | Some t =>
        let '(t', x) := if ft then ct_fit_transform T t a else (t, ct_transform T t a) in
        (with_tf r t', do b <- x; do z <- opt_map (if cm_cont D then ct_ddts T t' else ct_transform T t') lhs; Ok (b, z))
    end.
  Definition a_compressing (r : rom) (fb : bool) (a : arr) (lhs : option arr) : rom * res (arr * option arr) :=
    match a_basis r with
    | None => (r, Ok (a, lhs))
    | Some b =>
        let '(b', x) := if fb then cb_fit B b a else (b, Ok tt) in
        (with_basis r b', do _ <- x; do q <- cb_compress B b' a; do z <- opt_map (cb_compress B b') lhs; Ok (q, z))
    end.
  Definition aencode_fit (r : rom) (ft fb : bool) (a : arr) (lhs : option arr) : rom * res (arr * option arr) :=
    match a_lifting r a lhs with
    | Err e => (r, Err e)
    | Ok (a1, z1) => sbind (a_transforming r ft a1 z1) (fun r2 az => a_compressing r2 fb (fst az) (snd az))
    end.
  (* encode(states, lhs), encode(states) *)
  Definition aencode (r : rom) (a : arr) (lhs : option arr) : res (arr * option arr) := snd (aencode_fit r false false a lhs).
  Definition aencode1 (r : rom) (a : arr) : res arr := do qz <- aencode r a None; Ok (fst qz).
  (* decode(states_encoded, locs): _base.py:247-267 *)
  Definition adecode (r : rom) (q : arr) (locs : option locsel) : res arr :=
    do x <- opt_call (a_basis r) (fun b y => cb_decompress B b y locs) q;
    do y <- opt_call (a_tf r) (fun t z => ct_inverse T t z locs) x;
    opt_call (a_lift r) lf_unlift y.
  (* project(states): _base.py:292 *)
  Definition aproject (r : rom) (a : arr) : res arr := do q <- aencode1 r a; adecode r q None.
  (* predict(state0, ...), predict(parameter, state0, ...): _nonparametric.py:346-348, _parametric.py:142-144 *)
  Definition apredict (r : rom) (args : A) (q0 : arr) : res arr :=
    do e <- aencode1 r q0; do Y <- cm_predict D (a_model r) args e; adecode r Y None.

  (* _process_training_data: _base.py:382-435; what concerns only the lifter and the estimator is in RomModel.v *)
  Definition lift_part (r : rom) : parts := {| rp_lift := a_lift r; rp_tf := None; rp_basis := None |}.
  Definition a_train_transform (r : rom) (ft : bool) (Qs : list arr) (Zs : option (list arr)) : rom * res (list arr * option (list arr)) :=
    match a_tf r with
    | None => (r, Ok (Qs, Zs))
    | Some t =>
        let '(t', x) := if ft then match hstack_arr Qs with Err e => (t, Err e) | Ok H => ct_fit T t H end else (t, Ok tt) in
        (with_tf r t', do _ <- x; do qs <- mapM (ct_transform T t') Qs;
                       do zs <- opt_map (mapM (if cm_cont D then ct_ddts T t' else ct_transform T t')) Zs; Ok (qs, zs))
    end.
  Definition a_train_compress (r : rom) (fb : bool) (Qs : list arr) (Zs : option (list arr)) : rom * res (list arr * option (list arr)) :=
    match a_basis r with
    | None => (r, Ok (Qs, Zs))
    | Some b =>
        let '(b', x) := if fb then match hstack_arr Qs with Err e => (b, Err e) | Ok H => cb_fit B b H end else (b, Ok tt) in
        (with_basis r b', do _ <- x; do qs <- mapM (cb_compress B b') Qs; do zs <- opt_map (mapM (cb_compress B b')) Zs; Ok (qs, zs))
    end.
  Definition a_process (r : rom) (ft fb : bool) (Qs : list arr) (Zs Us : option (list arr)) : rom * res (list arr * list arr * option (list arr)) :=
    match train_lift (lift_part r) (cm_cont D) Qs Zs with
    | Err e => (r, Err e)
    | Ok (q1, z1) =>
        sbind (a_train_transform r ft q1 z1) (fun r2 qz =>
        sbind (a_train_compress r2 fb (fst qz) (snd qz)) (fun r3 qz' =>
        (r3, train_lhs (a_ddt r3) (cm_cont D) (fst qz') (snd qz') Us)))
    end.
  (* the call of model.fit() on the processed trajectories; it returns the model after it, also if it raises *)
  Definition fit_call := mobj D -> list arr -> list arr -> option (list arr) -> mobj D * res unit.
  (* _fit_model for a list of trajectories: _base.py:495-523 *)
  Definition a_fit_model (call : fit_call) (r : rom) (ft fb : bool) (Qs : list arr) (Zs Us : option (list arr)) : rom * res unit :=
    sbind (a_process r ft fb Qs Zs Us) (fun r3 x => let '(qs, zs, us) := x in
    let '(d, y) := call (a_model r3) qs zs us in (with_model r3 d, y)).
  (* parameters=None: the trajectories are put side by side: _base.py:510-517 *)
  Definition stacked (f : mobj D -> arr -> arr -> option arr -> mobj D * res unit) : fit_call := fun d qs zs us =>
    match (do U <- hstack_opt us; do Q <- hstack_arr qs; do L <- hstack_arr zs; Ok (Q, L, U)) with
    | Err e => (d, Err e)
    | Ok (Q, L, U) => f d Q L U
    end.
  (* ROM.fit(states, lhs, inputs, fit_transformer, fit_basis): _nonparametric.py:109-118 *)
  Definition arom_fit (f : mobj D -> arr -> arr -> option arr -> mobj D * res unit) (r : rom) (X : training) (ft fb : bool) : rom * res unit :=
    match (do _ <- check_fit_args (cm_cont D) (cm_hasin D (a_model r)) (fst (train_args X)) (snd (train_args X)) (a_ddt r); fix_single X) with
    | Err e => (r, Err e)
    | Ok (Qs, Zs, Us) => a_fit_model (stacked f) r ft fb Qs Zs Us
    end.
  (* ParametricROM.fit(parameters, states, lhs, inputs, ...): _parametric.py:108-117; call has the parameters built in *)
  Definition aprom_fit (call : fit_call) (r : rom) (Qs : list arr) (Zs Us : option (list arr)) (ft fb : bool) : rom * res unit :=
    match check_fit_args (cm_cont D) (cm_hasin D (a_model r)) (given Zs) (given Us) (a_ddt r) with
    | Err e => (r, Err e)
    | Ok _ => a_fit_model call r ft fb Qs Zs Us
    end.
End Any.

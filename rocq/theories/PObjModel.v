(* PObjModel.v -- models/mono/_parametric.py:28-166, 395-506, 600-720 and models/mono/_base.py for parametric models whose operators are
   objects of any kind: classes derived from OperatorTemplate and ParametricOperatorTemplate (operators/_base.py:896-1208).  An object is
   whatever answers the calls below; learning is in PGenModel.v.  Solvers and warnings are left out.  evaluate() is
   taken to leave its object alone (an affine operator may set its parameter dimension then: ParaModel.v).  No proofs here. *)
From Coq Require Import ZArith String.
From Verif Require Export ParamModel ObjModel.
#[local] Open Scope nat_scope.
#[local] Open Scope list_scope.

(* the parametric objects, and what the model asks them *)
Record pworld (W : world) := {
  pobj : Type;
  pw_ent : pobj -> option bool;                           (* op.entries is not None; None: there is no attribute entries *)
  pw_type : pobj -> nat;                                  (* op._OperatorClass, as a number of the classes counted by w_type *)
  pw_dim : pobj -> option nat;                            (* op.state_dimension *)
  pw_in : pobj -> option (option nat);                    (* op.input_dimension; None: no inputs *)
  pw_p : pobj -> option nat;                              (* op.parameter_dimension *)
  pw_setp : pobj -> nat -> res pobj;                      (* op.parameter_dimension = p *)
  pw_eval : pobj -> pval -> res (obj W);                  (* op.evaluate(parameter) *)
  pw_galerkin : pobj -> mat -> option mat -> res pobj;    (* op.galerkin(Vr, Wr) *)
  pw_copy : pobj -> res pobj;                             (* op.copy() *)
  pw_eq : obj W + pobj -> obj W + pobj -> bool }.         (* a == b for operators of both kinds *)
Arguments pobj {W}. Arguments pw_ent {W}. Arguments pw_type {W}. Arguments pw_dim {W}. Arguments pw_in {W}. Arguments pw_p {W}. Arguments pw_setp {W}. Arguments pw_eval {W}.
Arguments pw_galerkin {W}. Arguments pw_copy {W}. Arguments pw_eq {W}.

Definition bindmap {A B} (x : res A) (f : A -> B) : res B := do a <- x; Ok (f a).
(* operators of both kinds, as the base class sees them: models/mono/_base.py.  Parametric ones cannot be applied without a parameter,
   which the base class never does. *)
Definition both (W : world) (P : pworld W) : world :=
  {| obj := obj W + pobj P;
     w_ent := fun a => match a with inl o => w_ent W o | inr p => pw_ent P p end;
     w_type := fun a => match a with inl o => w_type W o | inr p => pw_type P p end;           (* _parametric.py:66-77 *)
     w_dim := fun a => match a with inl o => w_dim W o | inr p => pw_dim P p end;
     w_in := fun a => match a with inl o => w_in W o | inr p => pw_in P p end;
     w_apply := fun a q u => match a with inl o => w_apply W o q u | inr p => Err TypeError end;
     w_jac := fun a q u => match a with inl o => w_jac W o q u | inr p => Err TypeError end;
     w_galerkin := fun a Vr Wr => match a with inl o => bindmap (w_galerkin W o Vr Wr) inl | inr p => bindmap (pw_galerkin P p Vr Wr) inr end;
     w_copy := fun a => match a with inl o => bindmap (w_copy W o) inl | inr p => bindmap (pw_copy P p) inr end;
     w_eq := pw_eq P |}.

Record xmodel (W : world) (P : pworld W) := { xm_base : omodel (both W P); xm_p : option nat }.
Arguments xm_base {W P}. Arguments xm_p {W P}.

(* _synchronize_parameter_dimensions(): _parametric.py:128-163 *)
Definition known_ps {W} (P : pworld W) (l : list (obj W + pobj P)) : list nat :=
  flat_map (fun a => match a with inl _ => [] | inr p => match pw_p P p with Some n => [n] | None => [] end end) l.
Definition common_p (l : list nat) : res (option nat) :=
  match nodup Nat.eq_dec l with [] => Ok None | [n] => Ok (Some n) | _ => Err DimensionalityError end.
Definition give_p {W} (P : pworld W) (x : option nat) (a : obj W + pobj P) : res (obj W + pobj P) :=
  match a, x with
  | inr p, Some n => match pw_p P p with None => bindmap (pw_setp P p n) inr | Some _ => Ok a end
  | _, _ => Ok a
  end.
(* the constructor with a list of operator objects: models/mono/_base.py:33-39, _parametric.py:94-121 *)
Definition xmk (W : world) (P : pworld W) (k : kind) (l : list (obj W + pobj P)) : res (xmodel W P) :=
  do b <- omk (both W P) k l; do x <- common_p (known_ps P l); do l' <- mapM (give_p P x) l;
  Ok {| xm_base := {| om_kind := om_kind b; om_ops := (l' : list (obj (both W P))); om_infer := om_infer b; om_known := om_known b; om_hasin := om_hasin b; om_r := om_r b; om_m := om_m b |}; xm_p := x |}.
(* evaluate(parameter): _parametric.py:395-413 *)
Definition xevaluate (W : world) (P : pworld W) (d : xmodel W P) (mu : pval) : res (omodel W) :=
  do l <- mapM (fun a => match a with inl o => Ok o | inr p => pw_eval P p mu end) (om_ops (xm_base d)); omk W (om_kind (xm_base d)) l.
(* rhs, jacobian, predict: _parametric.py:415-506 *)
Definition xrhs (W : world) (P : pworld W) (d : xmodel W P) (mu : pval) (q : arr) (u : option arr) : res arr := do e <- xevaluate W P d mu; orhs W e q u.
Definition xjacobian (W : world) (P : pworld W) (d : xmodel W P) (mu : pval) (q : vec) (u : option vec) : res mat := do e <- xevaluate W P d mu; ojacobian W e q u.
Definition xpredict (W : world) (P : pworld W) (d : xmodel W P) (mu : pval) (q0 : arr) (n : Z) (inputs : option inputarg) : res mat :=
  do e <- xevaluate W P d mu; opredict W e q0 n inputs.
(* ParametricContinuousModel.rhs(t, parameter, state, input_func), jacobian: _parametric.py:804-888 *)
Definition xcont_rhs (W : world) (P : pworld W) (d : xmodel W P) (t : R) (mu : pval) (q : arr) (f : option (R -> arr)) : res arr := do e <- xevaluate W P d mu; ocont_rhs W e t q f.
Definition xcont_jacobian (W : world) (P : pworld W) (d : xmodel W P) (t : R) (mu : pval) (q : vec) (f : option (R -> vec)) : res mat :=
  do e <- xevaluate W P d mu; ocont_jacobian W e t q f.
(* galerkin(Vr, Wr), copy(), ==: models/mono/_base.py:283-320 *)
Definition xgalerkin (W : world) (P : pworld W) (d : xmodel W P) (Vr : mat) (Wr : option mat) : res (xmodel W P) :=
  do l <- mapM (fun a => if uncal (both W P) a then w_copy (both W P) a else w_galerkin (both W P) a Vr Wr) (om_ops (xm_base d)); xmk W P (om_kind (xm_base d)) l.
Definition xcopy (W : world) (P : pworld W) (d : xmodel W P) : res (xmodel W P) :=
  do l <- mapM (w_copy (both W P)) (om_ops (xm_base d)); xmk W P (om_kind (xm_base d)) l.
Definition xeq (W : world) (P : pworld W) (a b : xmodel W P) : bool := omodel_eqb (both W P) (xm_base a) (xm_base b).

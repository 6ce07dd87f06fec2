(* SpecAnyObj.v -- vocabulary for the statements about models made of any operator objects. *)
From Coq Require Import ZArith.
From Verif Require Export SpecMono ObjModel.
#[local] Open Scope nat_scope.

(* f(q, u)_i, the function an operator is meant to be *)
Definition fn : Type := vec -> vec -> nat -> R.
Definition total (fs : list fn) : fn := fun q u i => lsum (map (fun f => f q u i) fs).
(* u is given as ou to an object that takes inputs; others may be given anything *)
Definition given_to (W : world) (o : obj W) (m : nat) {A} (u : vec) (wrap : vec -> A) (ou : option A) : Prop :=
  is_vec m u /\ (takes_in W o = true -> ou = Some (wrap u)).
(* a calibrated operator with r states (and m inputs, if any) whose apply() is f *)
Record behaves (W : world) (r m : nat) (o : obj W) (f : fn) : Prop := {
  bh_cal : uncal W o = false;
  bh_dim : w_dim W o = Some r;
  bh_in : forall x, w_in W o = Some x -> x = Some m;
  bh_app : forall q u ou, is_vec r q -> given_to W o m u V ou ->
    exists y, w_apply W o (V q) ou = Ok (V y) /\ is_vec r y /\ forall i, i < r -> vget y i = f q u i }.
(* its jacobian() is the derivative of f in the state, in every direction *)
Definition differentiates (W : world) (r m : nat) (o : obj W) (f : fn) : Prop :=
  forall q u ou, is_vec r q -> given_to W o m u (fun v => v) ou ->
    exists J, w_jac W o q ou = Ok J /\ (forall A, J = JMat A -> is_mat r r A) /\
      forall dir i, is_vec r dir -> i < r -> derivable_pt_lim (fun t => f (along q dir t) u i) 0 (bsum r (fun j => (jget J i j * vget dir j)%R)).
(* f' is the Petrov-Galerkin projection of f: (W^T V) f'(q, u) = W^T f(V q, u) *)
Definition projection (n r m : nat) (Vr Wr : mat) (f f' : fn) : Prop :=
  forall q u i, is_vec r q -> is_vec m u -> i < r ->
    bsum r (fun k => (bsum n (fun l => mget Wr l i * mget Vr l k) * f' q u k)%R) = bsum n (fun l => (mget Wr l i * f (matvec Vr q) u l)%R).
(* galerkin() of the object o is an object like that *)
Definition projects (W : world) (n r m : nat) (Vr : mat) (Wr : option mat) (o : obj W) (f : fn) : Prop :=
  exists o' f', w_galerkin W o Vr Wr = Ok o' /\ takes_in W o' = takes_in W o /\ behaves W r m o' f' /\
    projection n r m Vr (match Wr with Some A => A | None => Vr end) f f'.
(* a model made of operators that are fs *)
Definition model_of (W : world) (r m : nat) (d : omodel W) (fs : list fn) : Prop :=
  exists k l, omk W k l = Ok d /\ Forall2 (behaves W r m) l fs.
Definition model_input {W A} (d : omodel W) (m : nat) (u : vec) (wrap : vec -> A) (ou : option A) : Prop :=
  is_vec m u /\ (om_hasin d = true -> ou = Some (wrap u)).
(* inputs for n - 1 steps; the input of step j *)
Definition oenough {W} (d : omodel W) (m : nat) (inputs : option inputarg) (n : nat) : Prop :=
  om_hasin d = true -> exists u k, inputs = Some (UArr u) /\ is_mat m k (atleast_2d u) /\ n - 1 <= k.
Definition ostep {W} (d : omodel W) (inputs : option inputarg) (j : nat) : option arr :=
  if om_hasin d then match inputs with
                     | Some (UArr u) => Some (V (colv (nrows (atleast_2d u)) (atleast_2d u) j))
                     | _ => None
                     end
  else None.
(* the operators of a can be paired with those of b so that partners are equal *)
Definition paired (W : world) (a b : omodel W) : Prop := exists l, Permutation l (om_ops b) /\ Forall2 (fun x y => w_eq W x y = true) (om_ops a) l.
Definition same_frame {W} (a b : omodel W) : Prop := om_kind a = om_kind b /\ om_r a = om_r b /\ om_m a = om_m b.
Definition equivalence_eq (W : world) : Prop :=
  (forall a, w_eq W a a = true) /\ (forall a b, w_eq W a b = w_eq W b a) /\ (forall a b c, w_eq W a b = true -> w_eq W b c = true -> w_eq W a c = true).
(* c is a copy of o as far as the model can see *)
Definition faithful_copy (W : world) (o : obj W) : Prop :=
  exists c, w_copy W o = Ok c /\ w_eq W c o = true /\ uncal W c = uncal W o /\ w_type W c = w_type W o /\ w_dim W c = w_dim W o /\ w_in W c = w_in W o.

(* SpecPObj.v -- vocabulary for the statements about parametric models made of any operator objects. *)
From Coq Require Import ZArith.
From Verif Require Export OpsProofs SpecParam SpecAnyObj PObjModel.
#[local] Open Scope nat_scope.

(* the operators of both kinds: those to be learned, their kinds of operation, their dimensions and inputs *)
Definition learned {W} (P : pworld W) (a : obj W + pobj P) : bool :=
  match a with inl o => uncal W o | inr p => match pw_ent P p with Some false => true | _ => false end end.
Definition optype {W} (P : pworld W) (a : obj W + pobj P) : nat := match a with inl o => w_type W o | inr p => pw_type P p end.
Definition states {W} (P : pworld W) (a : obj W + pobj P) : option nat := match a with inl o => w_dim W o | inr p => pw_dim P p end.
Definition inputs_of {W} (P : pworld W) (a : obj W + pobj P) : option (option nat) := match a with inl o => w_in W o | inr p => pw_in P p end.
Definition has_in {W} (P : pworld W) (a : obj W + pobj P) : bool := match inputs_of P a with Some _ => true | None => false end.
(* F(mu)(q, u)_i, the function a parametric operator is meant to be *)
Definition pfn : Type := pval -> fn.
(* the object a model with parameter dimension x keeps for p: p itself, or p after it was given the dimension it did not have *)
Definition kept {W} (P : pworld W) (x : option nat) (p p' : pobj P) : Prop :=
  match x, pw_p P p with Some n, None => pw_setp P p n = Ok p' | _, _ => p' = p end.
(* at the parameter values in dom, the object evaluates to an operator with r states (and m inputs, if any) that is F(mu) *)
Definition evaluates {W} (P : pworld W) (r m : nat) (dom : pval -> Prop) (p : pobj P) (F : pfn) : Prop :=
  forall mu, dom mu -> exists o, pw_eval P p mu = Ok o /\ behaves W r m o (F mu) /\ (takes_in W o = true -> pw_in P p <> None).
(* an operator given to the constructor of a model with parameter dimension x *)
Definition xdescribed {W} (P : pworld W) (r m : nat) (x : option nat) (dom : pval -> Prop) (a : obj W + pobj P) (F : pfn) : Prop :=
  match a with
  | inl o => forall mu, behaves W r m o (F mu)
  | inr p => forall p', kept P x p p' -> pw_in P p' = pw_in P p /\ evaluates P r m dom p' F
  end.
Definition at_mu (Fs : list pfn) (mu : pval) : list fn := map (fun F => F mu) Fs.
(* a model made of operators that are Fs *)
Definition xmodel_of (W : world) (P : pworld W) (r m : nat) (dom : pval -> Prop) (d : xmodel W P) (Fs : list pfn) : Prop :=
  exists k l, xmk W P k l = Ok d /\ Forall2 (xdescribed P r m (xm_p d) dom) l Fs.
(* the inputs: the evaluated operators take inputs only if the model does *)
Definition xinput {W} {P : pworld W} {A} (d : xmodel W P) (m : nat) (u : vec) (wrap : vec -> A) (ou : option A) : Prop :=
  is_vec m u /\ (om_hasin (xm_base d) = true -> ou = Some (wrap u)).
Definition xenough {W} {P : pworld W} (d : xmodel W P) (m : nat) (inputs : option inputarg) (n : nat) : Prop :=
  om_hasin (xm_base d) = true -> exists u k, inputs = Some (UArr u) /\ is_mat m k (atleast_2d u) /\ n - 1 <= k.
(* jacobian() of what an operator evaluates to is the derivative of F(mu) *)
Definition xdifferentiates {W} (P : pworld W) (r m : nat) (mu : pval) (a : obj W + pobj P) (F : pfn) : Prop :=
  match a with
  | inl o => differentiates W r m o (F mu)
  | inr p => forall o, pw_eval P p mu = Ok o -> differentiates W r m o (F mu)
  end.
(* galerkin() of the operator is an operator that is the projection, at every parameter value in dom, in a model with parameter dimension x *)
Definition xprojects {W} (P : pworld W) (n r m : nat) (x : option nat) (dom : pval -> Prop) (Vr : mat) (Wr : option mat) (a : obj W + pobj P) (F : pfn) : Prop :=
  learned P a = false /\ exists a' F',
    match a, a' with inl o, inl o' => w_galerkin W o Vr Wr = Ok o' | inr p, inr p' => pw_galerkin P p Vr Wr = Ok p' | _, _ => False end /\ xdescribed P r m x dom a' F' /\
    forall mu, dom mu -> projection n r m Vr (match Wr with Some A => A | None => Vr end) (F mu) (F' mu).
(* no two operators disagree in the dimension of the parameter *)
Definition agree_p {W} (P : pworld W) (l : list (obj W + pobj P)) : Prop :=
  forall p p' n n', In (inr p) l -> In (inr p') l -> pw_p P p = Some n -> pw_p P p' = Some n' -> n = n'.
(* the setter of the parameter dimension changes that dimension only *)
Definition plain_setter {W} (P : pworld W) : Prop :=
  forall p n p', pw_setp P p n = Ok p' -> pw_p P p' = Some n /\ pw_ent P p' = pw_ent P p /\ pw_type P p' = pw_type P p /\ pw_dim P p' = pw_dim P p /\ pw_in P p' = pw_in P p.
(* copy() returns an operator that equals the original, with the same dimensions *)
Definition xcopies {W} (P : pworld W) (a : obj W + pobj P) : Prop := exists c,
  match a, c with inl o, inl o' => w_copy W o = Ok o' | inr p, inr p' => pw_copy P p = Ok p' /\ pw_p P p' = pw_p P p | _, _ => False end /\
  pw_eq P c a = true /\ learned P c = learned P a /\ optype P c = optype P a /\ states P c = states P a /\ inputs_of P c = inputs_of P a.

(* an affine operator of the library with the terms ops: the combination of the terms with the coefficients at the parameter *)
Definition affine_fn (a : aff) (ops : list op) : pfn := fun mu q u i =>
  bsum (a_nterms a) (fun k => (vget (match a_theta a mu with TS x => [x] | TV v => v end) k * vget (matvec (entries2 (nth k ops (OConst []))) (datavec (nth k ops (OConst [])) q u)) i)%R).
(* the parameters it can be evaluated at in a model with parameter dimension x: of the right length, and with a coefficient for every term *)
Definition affine_dom (x : option nat) (a : aff) (mu : pval) : Prop :=
  (forall n, x = Some n \/ a_pdim a = Some n -> plen mu = n) /\ match a_theta a mu with TS _ => a_nterms a = 1 | TV v => length v = a_nterms a end.
(* an interpolated operator of the library whose interpolator returns the matrices A(mu) *)
Definition interpolated_fn (t : itp) (A : pval -> mat) : pfn := fun mu q u i => vget (matvec (A (if plen mu =? 1 then PS (unscalar mu) else mu)) (datavec (proto (i_cls t)) q u)) i.
Definition interpolated_dom (r m : nat) (t : itp) (f : interpolator) (A : pval -> mat) (mu : pval) : Prop :=
  i_pdim t = Some (plen mu) /\ let nu := if plen mu =? 1 then PS (unscalar mu) else mu in f nu = Ok (A nu) /\ is_mat r (opdim (proto (i_cls t)) r m) (A nu).

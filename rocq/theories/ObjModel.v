(* ObjModel.v -- models/mono/_base.py and models/mono/_nonparametric.py for operator objects of any kind: classes derived
   from OperatorTemplate (operators/_base.py:50-499), which need not be learnable, as well as from OpInfOperator.  An object
   is whatever answers the calls below; learning is in GenModel.v.  Solvers and warnings are left out.  No proofs here. *)
From Coq Require Import ZArith String.
From Verif Require Export MonoModel.
#[local] Open Scope nat_scope.
#[local] Open Scope list_scope.

(* the objects, and what the model asks them *)
Record world := {
  obj : Type;
  w_ent : obj -> option bool;                           (* op.entries is not None; None: there is no attribute entries *)
  w_type : obj -> nat;                                  (* the class as seen by the test for duplicates: _nonparametric.py:56-79 *)
  w_dim : obj -> option nat;                            (* op.state_dimension *)
  w_in : obj -> option (option nat);                    (* op.input_dimension; None: no inputs (operators/_base.py:41-47) *)
  w_apply : obj -> arr -> option arr -> res arr;        (* op.apply(state, input_) *)
  w_jac : obj -> vec -> option vec -> res jac;          (* op.jacobian(state, input_), for a single state *)
  w_galerkin : obj -> mat -> option mat -> res obj;     (* op.galerkin(Vr, Wr) *)
  w_copy : obj -> res obj;                              (* op.copy() *)
  w_eq : obj -> obj -> bool }.                          (* a == b *)

Record omodel (W : world) := { om_kind : kind; om_ops : list (obj W); om_infer : list nat; om_known : list nat; om_hasin : bool; om_r : option nat; om_m : option nat }.
Arguments om_kind {W}. Arguments om_ops {W}. Arguments om_infer {W}. Arguments om_known {W}. Arguments om_hasin {W}. Arguments om_r {W}. Arguments om_m {W}.

(* is_uncalibrated(op): operators/_base.py:1364-1366; the objects with entries are the OpInf operators *)
Definition uncal (W : world) (o : obj W) : bool := match w_ent W o with Some false => true | _ => false end.
Definition takes_in (W : world) (o : obj W) : bool := match w_in W o with Some _ => true | None => false end.
(* {...}.pop() if there is exactly one: models/mono/_base.py:163-171, 200-210.  None is a value like any other. *)
Definition odim_dec (a b : option nat) : {a = b} + {a <> b}. Proof. decide equality; apply Nat.eq_dec. Defined.
Definition the_dim (l : list (option nat)) : res (option nat) :=
  match nodup odim_dec l with [] => Ok None | [x] => Ok x | _ => Err DimensionalityError end.
(* _check_state_dimension_consistency: models/mono/_base.py:158-171 *)
Definition obj_dim (W : world) (l : list (obj W)) : res (option nat) := the_dim (map (w_dim W) (filter (fun o => negb (uncal W o)) l)).
(* _check_input_dimension_consistency: models/mono/_base.py:192-210 *)
Definition obj_in (W : world) (l : list (obj W)) : res (option nat) :=
  if existsb (takes_in W) l
  then the_dim (flat_map (fun o => match w_in W o with Some m => [m] | None => [] end) (filter (fun o => negb (uncal W o)) l))
  else Ok (Some 0).
Definition positions {A} (p : A -> bool) (l : list A) : list nat := map fst (filter (fun x => p (snd x)) (combine (seq 0 (length l)) l)).
(* the constructor with a list of operator objects: models/mono/_base.py:33-39, 68-111 *)
Definition omk (W : world) (k : kind) (l : list (obj W)) : res (omodel W) :=
  if length l =? 0 then Err ValueError
  else if negb (length (nodup Nat.eq_dec (map (w_type W) (filter (uncal W) l))) =? length (filter (uncal W) l)) then Err ValueError
  else do r <- obj_dim W l; do m <- obj_in W l;
       Ok {| om_kind := k; om_ops := l; om_infer := positions (uncal W) l; om_known := positions (fun o => negb (uncal W o)) l;
             om_hasin := existsb (takes_in W) l; om_r := r; om_m := m |}.
(* state_dimension = n: models/mono/_base.py:179-190; op.entries is asked of every operator *)
Definition oset_r (W : world) (n : nat) (d : omodel W) : res (omodel W) :=
  if forallb (fun o => match w_ent W o with None => false | Some false => true | Some true => odim_eqb (w_dim W o) (Some n) end) (om_ops d)
  then Ok {| om_kind := om_kind d; om_ops := om_ops d; om_infer := om_infer d; om_known := om_known d; om_hasin := om_hasin d; om_r := Some n; om_m := om_m d |}
  else Err AttributeError.
(* _check_is_trained: models/mono/_base.py:383-390 *)
Definition otrained (W : world) (d : omodel W) : res unit :=
  match om_r d with
  | None => Err AttributeError
  | Some _ => if om_hasin d && match om_m d with None => true | Some _ => false end then Err AttributeError
              else if existsb (uncal W) (om_ops d) then Err AttributeError else Ok tt
  end.

(* rhs(state, input_): _nonparametric.py:359-362 *)
Fixpoint osum (W : world) (l : list (obj W)) (state : arr) (input : option arr) (out : arr) : res arr :=
  match l with
  | [] => Ok out
  | o :: t => do y <- w_apply W o state input; do out' <- iadd out y; osum W t state input out'
  end.
Definition orhs (W : world) (d : omodel W) (state : arr) (input : option arr) : res arr :=
  osum W (om_ops d) state input (emap (fun _ => 0%R) state).
(* jacobian(state, input_): _nonparametric.py:387-391.  (Summands of another shape are rejected; numpy would broadcast 1 x 1.) *)
Fixpoint ojsum (W : world) (l : list (obj W)) (q : vec) (u : option vec) (out : mat) : res mat :=
  match l with
  | [] => Ok out
  | o :: t => do J <- w_jac W o q u;
              match J with
              | JZero => ojsum W t q u out
              | JMat A => if shape_is (nrows out) (ncols out) A then ojsum W t q u (madd out A) else Err ValueError
              end
  end.
Definition ojacobian (W : world) (d : omodel W) (q : vec) (u : option vec) : res mat :=
  match om_r d with None => Err TypeError | Some r => ojsum W (om_ops d) q u (mzeros r r) end.
(* ContinuousModel.rhs(t, state, input_func), jacobian: _nonparametric.py:932-933, 958-959 *)
Definition ocont_input {W A} (d : omodel W) (t : R) (f : option (R -> A)) : res (option A) :=
  if om_hasin d then match f with None => Err TypeError | Some g => Ok (Some (g t)) end else Ok None.
Definition ocont_rhs (W : world) (d : omodel W) (t : R) (state : arr) (f : option (R -> arr)) : res arr :=
  do u <- ocont_input d t f; orhs W d state u.
Definition ocont_jacobian (W : world) (d : omodel W) (t : R) (q : vec) (f : option (R -> vec)) : res mat :=
  do u <- ocont_input d t f; ojacobian W d q u.
(* DiscreteModel.predict(state0, niters, inputs): _nonparametric.py:784-826 *)
Definition orhs_vec (W : world) (d : omodel W) (q : vec) (u : option arr) : res vec :=
  do y <- orhs W d (V q) u; match y with V v => Ok v | M _ => Err ValueError end.
Definition opredict (W : world) (d : omodel W) (q0 : arr) (niters : Z) (inputs : option inputarg) : res mat :=
  do _ <- otrained W d;
  match q0, om_r d with
  | V q, Some r =>
      if negb (length q =? r) then Err DimensionalityError
      else if om_hasin d && match inputs with None => true | Some _ => false end then Err ValueError
      else if (niters <? 1)%Z then Err ValueError
      else
        let n := Z.to_nat niters in
        do cols <- (if om_hasin d then
                      match inputs with
                      | Some (UArr u) =>
                          let U := atleast_2d u in
                          if negb (is_dim (om_m d) (nrows U)) || (ncols U <? n - 1) then Err ValueError
                          else iterate (fun q j => orhs_vec W d q (Some (V (colv (nrows U) U j)))) (n - 1) 0 q
                      | Some UCall => Err TypeError
                      | None => Err ValueError
                      end
                    else iterate (fun q _ => orhs_vec W d q None) (n - 1) 0 q);
        Ok (of_columns r (q :: cols))
  | _, _ => Err DimensionalityError
  end.
(* galerkin(Vr, Wr): models/mono/_base.py:283-292 *)
Definition ogalerkin (W : world) (d : omodel W) (Vr : mat) (Wr : option mat) : res (omodel W) :=
  do l <- mapM (fun o => if uncal W o then w_copy W o else w_galerkin W o Vr Wr) (om_ops d); omk W (om_kind d) l.
(* copy(): models/mono/_base.py:317-320 *)
Definition ocopy (W : world) (d : omodel W) : res (omodel W) := do l <- mapM (w_copy W) (om_ops d); omk W (om_kind d) l.
(* a == b: models/mono/_base.py:294-314, for models of the three classes (not their frozen subclasses) *)
Fixpoint ofind (W : world) (o : obj W) (l : list (obj W)) (marked : list nat) (i : nat) : option nat :=
  match l with
  | [] => None
  | b :: t => if w_eq W o b && negb (existsb (Nat.eqb i) marked) then Some i else ofind W o t marked (S i)
  end.
Fixpoint omatch (W : world) (l l' : list (obj W)) (marked : list nat) : bool :=
  match l with
  | [] => true
  | o :: t => match ofind W o l' marked 0 with Some i => omatch W t l' (i :: marked) | None => false end
  end.
Definition omodel_eqb (W : world) (a b : omodel W) : bool :=
  kind_eqb (om_kind b) (om_kind a) && (length (om_ops a) =? length (om_ops b)) && odim_eqb (om_r a) (om_r b) && odim_eqb (om_m a) (om_m b) &&
  omatch W (om_ops a) (om_ops b) [].

(* SpecMono.v -- vocabulary for the statements about (non-parametric) models. *)
From Coq Require Import ZArith.
From Verif Require Export SpecParam SpecLstsq MonoModel.
#[local] Open Scope nat_scope.

(* an operator object whose entries, if it has any, are those of an operator of its class of some positive size *)
Definition valid_op (o : mop) : Prop :=
  forall e, mo_ent o = Some e -> cls_of e = mo_cls o /\ exists r m, 0 < r /\ 0 < m /\ wf_op r m e.
Definition valid_arg (a : oparg) : Prop := match a with AOp o => valid_op o | _ => True end.

(* a newly made solver: no data yet, any regularizer of rectangular arrays *)
Definition rect (G : mat) : Prop := exists a b, 0 < a /\ 0 < b /\ is_mat a b G.
Definition fresh_solver (svd : mat -> res (mat * vec * mat)) (s : lsq) : Prop :=
  match s with
  | LPlain p => pl_data p = None
  | LL2 p => l2_reach svd p /\ l2_pre p = None
  | LL2D p => ld_reach svd p /\ ld_pre p = None
  | LTik p => tk_reach p /\ tk_data p = None /\ forall G, tk_reg p = Some G -> rect G
  | LTikD p => td_reach p /\ td_data p = None /\ forall Gs, td_reg p = Some Gs -> Forall rect Gs
  | LTsvd p => ts_reach svd p /\ ts_pre p = None
  | LTls p => tl_data p = None /\ tl_sol p = None
  end.
Definition valid_solver (svd : mat -> res (mat * vec * mat)) (a : solverarg) : Prop :=
  match a with SObj s => fresh_solver svd s | _ => True end.
Definition valid_reg (g : sreg) : Prop :=
  match g with
  | GTik (Some a) => good_arr a
  | GTikD (Some l) => Forall good_arr l
  | _ => True
  end.
Definition valid_in (u : option arr) : Prop := match u with Some a => good_arr a | None => True end.

(* what the theorems assume of scipy.linalg *)
Definition lsx_ok (X : lsx) : Prop := (forall o, lstsq_spec (x_lstsq X) o) /\ svd_spec (x_lsvd X) /\ solve_spec (x_lsolve X).

(* ---- histories -------------------------------------------------------------------------------------------------- *)
Inductive event :=
| ESetOps (args : list oparg) | ESetSolver (a : solverarg) | ESetReg (g : sreg) | ESetR (r : nat) | ESetM (m : nat)
| EFit (states lhs : arr) (inputs : option arr) | EDFit (states : arr) (next inputs : option arr) | ERefit.
Definition mstep (X : lsx) (d : model) (ev : event) : model * res unit :=
  match ev with
  | ESetOps args => set_operators args d
  | ESetSolver a => set_solver a d
  | ESetReg g => set_regularizer g d
  | ESetR r => set_state_dimension r d
  | ESetM m => set_input_dimension m d
  | EFit s l u => fit X d s l u
  | EDFit s n u => discrete_fit X d s n u
  | ERefit => refit X d
  end.
Definition valid_event (svd : mat -> res (mat * vec * mat)) (ev : event) : Prop :=
  match ev with
  | ESetOps args => Forall valid_arg args
  | ESetSolver a => valid_solver svd a
  | ESetReg g => valid_reg g
  | ESetR _ | ESetM _ | ERefit => True
  | EFit s l u => good_arr s /\ good_arr l /\ valid_in u
  | EDFit s n u => match n, s with
                   | None, M Q => exists r k, 0 < r /\ 1 < k /\ is_mat r k Q      (* at least two snapshots *)
                   | _, _ => good_arr s
                   end /\ valid_in n /\ valid_in u
  end.
(* Calls that raise are part of a history, except failing assignments to `operators` and to the regularizer and calls of
   refit() on a model that is not trained. *)
Definition orderly (d : model) (ev : event) (x : res unit) : Prop :=
  match ev with
  | ESetOps _ | ESetReg _ => x = Ok tt
  | ERefit => check_trained d = Ok tt
  | _ => True
  end.
Inductive reach (X : lsx) : model -> Prop :=
| reach_new k fr args a d : Forall valid_arg args -> valid_solver (x_lsvd X) a -> mk_model k fr args a = Ok d -> reach X d
| reach_step d ev d' x : reach X d -> valid_event (x_lsvd X) ev -> mstep X d ev = (d', x) -> orderly d ev x -> reach X d'.

(* ---- residuals ------------------------------------------------------------------------------------------------- *)
(* the input at snapshot j *)
Definition ucol (U : option arr) (j : nat) : option arr :=
  match U with None => None | Some u => Some (V (colv (nrows (atleast_2d u)) (atleast_2d u) j)) end.
(* x = sum_j (rhs(q_j, u_j)_i - z_ij)^2 *)
Definition residual_row (d : model) (r k : nat) (Q Z : mat) (U : option arr) (i : nat) (x : R) : Prop :=
  exists f : nat -> vec,
    (forall j, j < k -> rhs d (V (colv r Q j)) (ucol U j) = Ok (V (f j)) /\ length (f j) = r) /\
    x = bsum k (fun j => Rsqr (vget (f j) i - mget Z i j)).
(* x = sum_j |rhs(q_j, u_j) - z_j|^2 *)
Definition residual (d : model) (r k : nat) (Q Z : mat) (U : option arr) (x : R) : Prop :=
  exists f : nat -> vec,
    (forall j, j < k -> rhs d (V (colv r Q j)) (ucol U j) = Ok (V (f j)) /\ length (f j) = r) /\
    x = bsum k (fun j => bsum r (fun i => Rsqr (vget (f j) i - mget Z i j))).
(* other values for the operators that are learned: same classes and sizes; the known operators are kept *)
Definition candidate (r m : nat) (d : model) (l : list mop) : Prop :=
  length l = length (m_ops d) /\
  (forall i, In i (m_known d) -> nth_error l i = nth_error (m_ops d) i) /\
  (forall i, In i (m_infer d) -> exists o e, nth_error (m_ops d) i = Some o /\
     nth_error l i = Some {| mo_cls := mo_cls o; mo_ent := Some e |} /\ cls_of e = mo_cls o /\ wf_op r m e).
(* the documented penalty on row i of an operator matrix with w columns *)
Definition penalty (s : lsq) (w : nat) : option (mat -> nat -> R) :=
  match s with
  | LPlain _ => Some (fun _ _ => 0%R)
  | LL2 p => match l2_reg p with Some lam => Some (ridge w lam) | None => None end
  | LL2D p => match ld_reg p with Some v => Some (fun O i => ridge w (vget v i) O i) | None => None end
  | LTik p => match tk_reg p with Some G => Some (tikpen w G) | None => None end
  | LTikD p => match td_reg p with Some Gs => Some (fun O i => tikpen w (nth i Gs []) O i) | None => None end
  | LTsvd _ | LTls _ => None
  end.

(* a model takes an input exactly when one of its operators does; then an input of the right length has been given *)
Definition input_for (d : model) (u : option vec) : Prop :=
  m_hasin d = true -> exists m v, m_m d = Some m /\ u = Some v /\ length v = m.
(* the (i, j) entry of an operator's Jacobian *)
Definition jget (J : jac) (i j : nat) : R := match J with JZero => 0%R | JMat A => mget A i j end.

(* ---- DiscreteModel.predict ---------------------------------------------------------------------------------------- *)
(* the input of step j *)
Definition step_input (d : model) (inputs : option inputarg) (j : nat) : option arr :=
  if m_hasin d then match inputs with
                    | Some (UArr u) => Some (V (colv (nrows (atleast_2d u)) (atleast_2d u) j))
                    | _ => None
                    end
  else None.
(* the inputs of n - 1 steps, if the model takes inputs *)
Definition enough_inputs (d : model) (inputs : option inputarg) (n : nat) : Prop :=
  m_hasin d = true -> exists u m k, inputs = Some (UArr u) /\ m_m d = Some m /\ is_mat m k (atleast_2d u) /\ n - 1 <= k.
(* the inputs from step j on: U[..., j:] *)
Definition later (j : nat) (inputs : option inputarg) : option inputarg :=
  match inputs with
  | Some (UArr (V u)) => Some (UArr (V (skipn j u)))
  | Some (UArr (M U)) => Some (UArr (M (map (skipn j) U)))
  | x => x
  end.

(* ---- trajectories --------------------------------------------------------------------------------------------------- *)
(* Q1, Q2, ... with k1, k2, ... snapshots of r variables *)
Definition trajectories (r : nat) (ks : list nat) (Qs : list mat) : Prop := blocks r ks Qs /\ Forall (lt 0) ks /\ Qs <> [].
(* where the pairs of trajectory t start *)
Definition pairs_before (t : nat) (ks : list nat) : nat := lsumn (map (fun k => k - 1) (firstn t ks)).
(* two-dimensional inputs: m rows and at least as many columns as pairs *)
Definition inputs2 (m : nat) (ks : list nat) (us : list arr) : Prop :=
  Forall2 (fun k u => exists U K, u = M U /\ is_mat m K U /\ k - 1 <= K) ks us.
Definition inputs1 (ks : list nat) (us : list arr) : Prop :=
  Forall2 (fun k u => exists v, u = V v /\ k - 1 <= length v) ks us.

(* ---- the operator matrix ------------------------------------------------------------------------------------------------ *)
Definition op_width (d : model) (r m i : nat) : nat :=
  match nth_error (m_ops d) i with Some o => class_width r m (mo_cls o) | None => 0 end.
(* the learned operators hold the columns of O: in their order, side by side, each as many columns as its class needs *)
Definition distributed (d : model) (r m : nat) (O : mat) : Prop :=
  is_mat r (lsumn (map (op_width d r m) (m_infer d))) O /\
  forall pre i post, m_infer d = pre ++ i :: post -> exists o e,
    nth_error (m_ops d) i = Some o /\ mo_ent o = Some e /\ cls_of e = mo_cls o /\ is_mat r (op_width d r m i) (entries2 e) /\
    forall a b, a < r -> b < op_width d r m i -> mget (entries2 e) a b = mget O a (lsumn (map (op_width d r m) pre) + b).
(* learning does not touch anything else *)
Definition same_roles (d d' : model) : Prop :=
  m_kind d' = m_kind d /\ m_infer d' = m_infer d /\ m_known d' = m_known d /\ m_hasin d' = m_hasin d /\
  map mo_cls (m_ops d') = map mo_cls (m_ops d) /\
  forall i, In i (m_known d) -> nth_error (m_ops d') i = nth_error (m_ops d) i.

(* ---- fitting, then trying regularizers ------------------------------------------------------------------------------- *)
Inductive tuned (X : lsx) (states lhs : arr) (inputs : option arr) : model -> Prop :=
| tn_fit d d' : reach X d -> m_intrusive d = false -> fit X d states lhs inputs = (d', Ok tt) -> tuned X states lhs inputs d'
| tn_reg d g d' : tuned X states lhs inputs d -> valid_reg g -> set_regularizer g d = (d', Ok tt) -> tuned X states lhs inputs d'
| tn_refit d d' x : tuned X states lhs inputs d -> refit X d = (d', x) -> tuned X states lhs inputs d'.

(* d has the least residual plus penalty among all models with the same known operators: row by row and in total *)
Definition best (X : lsx) (d : model) (s : lsq) (states lhs : arr) (inputs : option arr) : Prop :=
  let Q := atleast_2d states in let Z := atleast_2d lhs in
  exists r m k O, m_r d = Some r /\ m_m d = Some m /\ 0 < k /\ is_mat r k Q /\ is_mat r k Z /\ operator_matrix d = Ok O /\
    (exists x, residual d r k Q Z inputs x) /\
    forall l, candidate r m d l -> exists O' y, operator_matrix (with_ops l d) = Ok O' /\ residual (with_ops l d) r k Q Z inputs y /\
      forall pen, penalty s (ncols O) = Some pen ->
        (forall x, residual d r k Q Z inputs x -> (x + bsum r (pen O) <= y + bsum r (pen O'))%R) /\
        forall i x yi, i < r -> residual_row d r k Q Z inputs i x -> residual_row (with_ops l d) r k Q Z inputs i yi ->
          (x + pen O i <= yi + pen O' i)%R.

(* ---- dimensions ------------------------------------------------------------------------------------------------------------ *)
Definition consistent (d : model) : Prop :=
  m_ops d <> [] /\
  (forall o e, In o (m_ops d) -> mo_ent o = Some e -> cls_of e = mo_cls o /\ exists r m, 0 < r /\ 0 < m /\ wf_op r m e /\
     m_r d = Some r /\ (takes_input o = true -> m_m d = Some m)) /\
  (m_hasin d = true <-> exists o, In o (m_ops d) /\ takes_input o = true) /\
  (m_hasin d = false -> m_m d = Some 0) /\
  (forall i j o o', In i (m_infer d) -> In j (m_infer d) -> nth_error (m_ops d) i = Some o -> nth_error (m_ops d) j = Some o' ->
     mo_cls o = mo_cls o' -> i = j).

(* a model with a history whose operators all have entries, of state dimension r *)
Definition trained (X : lsx) (d : model) (r : nat) : Prop := lsx_ok X /\ reach X d /\ check_trained d = Ok tt /\ m_r d = Some r.

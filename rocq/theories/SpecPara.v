(* SpecPara.v -- vocabulary for the statements about parametric models. *)
From Coq Require Import ZArith.
From Verif Require Export SpecMono SpecExt ParaModel.
From Verif Require Export SpecParam.
#[local] Open Scope nat_scope.

(* What the theorems assume of an interpolator class: if an interpolant can be built from distinct parameters, it takes the
   given values there; and all its values have the shape of the given ones. *)
Definition faithful (C : iclass) : Prop := forall ps es f, length es = length ps -> C ps es = Ok f ->
  (NoDup ps -> forall i, i < length ps -> f (nth i ps (PS 0)) = Ok (nth i es [])) /\
  (forall r c p E, Forall (is_mat r c) es -> f p = Ok E -> is_mat r c E).
Definition pext_ok (X : pext) : Prop := lsx_ok (px_l X) /\ faithful (px_cubic X) /\ faithful (px_linnd X).

(* an operator object with entries for state dimension r and input dimension m *)
Definition psized (r m : nat) (o : pop) : Prop :=
  match o with
  | PMono o => exists e, mo_ent o = Some e /\ cls_of e = mo_cls o /\ wf_op r m e
  | PAff a => exists ops, affine_of r m a ops
  | PItp t => exists ops f, i_entries t = Some ops /\ ops <> [] /\ family r m (i_cls t) ops /\ i_interp t = Some f /\
                forall p E, f p = Ok E -> is_mat r (class_width r m (i_cls t)) E
  end.
(* what the user passes *)
Definition valid_pop (o : pop) : Prop :=
  (pentries o <> None -> exists r m, 0 < r /\ 0 < m /\ psized r m o) /\
  match o with PMono _ => True | PAff a => 0 < a_nterms a | PItp t => forall C, i_iclass t = Some C -> faithful C end.
Definition valid_parg (a : parg) : Prop := match a with POp o => valid_pop o | POther => True end.

(* ---- histories: calls that raise are part of a history -------------------------------------------------------------- *)
Inductive pevent :=
| VSolver (a : solverarg) | VReg (g : sreg) | VFit (mus : list pval) (states lhs : list arr) (inputs : option (list arr)) | VRefit | VEval (mu : pval).
(* model.solver.regularizer = g *)
Definition pset_reg (g : sreg) (d : pmodel) : pmodel * res unit :=
  match pm_solver d with
  | None => (d, Err AttributeError)
  | Some s => let '(s', x) := lsq_setreg s g in (pw_solver (Some s') d, x)
  end.
Definition pstep (X : pext) (d : pmodel) (ev : pevent) : pmodel :=
  match ev with
  | VSolver a => fst (pset_solver a d)
  | VReg g => fst (pset_reg g d)
  | VFit mus s l u => fst (pfit X d mus s l u)
  | VRefit => fst (prefit X d)
  | VEval mu => fst (pevaluate d mu)
  end.
(* the coefficient functions of the affine operators give one number per term *)
Definition coeffs_ok (l : list pop) (mu : pval) : Prop := forall a, In (PAff a) l -> exists th, thetas a mu = Ok th /\ length th = a_nterms a.
(* data for fit(): one input array per parameter, if there are inputs *)
Definition fit_args (d : pmodel) (mus : list pval) (states lhs : list arr) (inputs : option (list arr)) : Prop :=
  Forall good_arr states /\ Forall good_arr lhs /\ match inputs with Some us => Forall good_arr us /\ length us = length mus | None => True end /\
  Forall (coeffs_ok (pm_ops d)) mus.
Definition valid_pevent (X : pext) (d : pmodel) (ev : pevent) : Prop :=
  match ev with
  | VSolver a => valid_solver (x_lsvd (px_l X)) a
  | VReg g => valid_reg g
  | VFit mus s l u => fit_args d mus s l u
  | VRefit | VEval _ => True
  end.
Inductive preach (X : pext) : pmodel -> Prop :=
| preach_new k args a d : Forall valid_parg args -> valid_solver (x_lsvd (px_l X)) a -> pmk_model k args a = Ok d -> preach X d
| preach_step d ev : preach X d -> valid_pevent X d ev -> preach X (pstep X d ev).

(* ---- values ---------------------------------------------------------------------------------------------------------- *)
(* y is what the operator contributes at the parameter mu: A q for a non-parametric operator, sum_k theta_k(mu) A_k q for an
   affine one, E q with E the interpolated entries for an interpolated one (and likewise for the other classes) *)
Definition acts (r : nat) (mu : pval) (q : vec) (u : option arr) (o : pop) (y : vec) : Prop :=
  match o with
  | PMono o => op_apply o (V q) u = Ok (V y)
  | PAff a => exists ops th ys, a_entries a = Some ops /\ thetas a mu = Ok th /\ length ys = length th /\ length ops = length th /\
      Forall2 (fun e z => op_apply {| mo_cls := a_cls a; mo_ent := Some e |} (V q) u = Ok (V z)) ops ys /\
      is_vec r y /\ forall i, i < r -> vget y i = bsum (length th) (fun k => (vget th k * vget (nth k ys []) i)%R)
  | PItp t => exists f E e, i_interp t = Some f /\ f (if plen mu =? 1 then PS (unscalar mu) else mu) = Ok E /\ construct (i_cls t) E = Ok e /\
      op_apply {| mo_cls := i_cls t; mo_ent := Some e |} (V q) u = Ok (V y)
  end.
(* ---- residuals --------------------------------------------------------------------------------------------------------- *)
Definition dset (l : list arr) (b : nat) : mat := atleast_2d (nth b l (V [])).
Definition dinput (us : option (list arr)) (b : nat) : option arr := match us with Some l => nth_error l b | None => None end.
(* f b j is the right-hand side of d at the parameter b and its snapshot j *)
Definition rhs_at (d : pmodel) (r : nat) (mus : list pval) (states : list arr) (inputs : option (list arr)) (f : nat -> nat -> vec) : Prop :=
  forall b j, b < length mus -> j < ncols (dset states b) ->
    prhs d (nth b mus (PS 0)) (V (colv r (dset states b) j)) (ucol (dinput inputs b) j) = Ok (V (f b j)) /\ length (f b j) = r.
Definition presidual_row (d : pmodel) (r : nat) (mus : list pval) (states lhs : list arr) (inputs : option (list arr)) (i : nat) (x : R) : Prop :=
  exists f, rhs_at d r mus states inputs f /\
    x = bsum (length mus) (fun b => bsum (ncols (dset states b)) (fun j => Rsqr (vget (f b j) i - mget (dset lhs b) i j))).
(* the sum of squares over all parameters and their snapshots *)
Definition presidual (d : pmodel) (r : nat) (mus : list pval) (states lhs : list arr) (inputs : option (list arr)) (x : R) : Prop :=
  exists f, rhs_at d r mus states inputs f /\
    x = bsum (length mus) (fun b => bsum (ncols (dset states b)) (fun j => bsum r (fun i => Rsqr (vget (f b j) i - mget (dset lhs b) i j)))).

(* other values for the entries of an operator that is learned.  An interpolated operator has one matrix per training
   parameter, which is its value there. *)
Definition version (r m : nat) (mus : list pval) (o0 o : pop) : Prop :=
  match o0, o with
  | PMono o0, PMono o => mo_cls o = mo_cls o0 /\ psized r m (PMono o)
  | PAff a0, PAff a => a_cls a = a_cls a0 /\ a_theta a = a_theta a0 /\ a_nterms a = a_nterms a0 /\ a_pdim a = a_pdim a0 /\ psized r m (PAff a)
  | PItp t0, PItp t => i_cls t = i_cls t0 /\ exists ops, i_entries t = Some ops /\ family r m (i_cls t) ops /\ length ops = length mus /\
      forall b, b < length mus -> i_evaluate t (nth b mus (PS 0)) = Ok (nth b ops (OConst []))
  | _, _ => False
  end.
Definition pcandidate (r m : nat) (mus : list pval) (d : pmodel) (l : list pop) : Prop :=
  length l = length (pm_ops d) /\
  (forall i, In i (pm_known d) -> nth_error l i = nth_error (pm_ops d) i) /\
  (forall i, In i (pm_infer d) -> exists o0 o, nth_error (pm_ops d) i = Some o0 /\ nth_error l i = Some o /\ version r m mus o0 o).
(* all entries of the learned operators side by side *)
Definition opblock (o : pop) : mat := match pentries o with Some es => hstack (map entries2 es) | None => [] end.
Definition all_entries (d : pmodel) : mat :=
  hstack (map (fun i => match nth_error (pm_ops d) i with Some o => opblock o | None => [] end) (pm_infer d)).

Definition pbest (d : pmodel) (s : lsq) (mus : list pval) (states lhs : list arr) (inputs : option (list arr)) : Prop :=
  exists r m, pm_r d = Some r /\ pm_m d = Some m /\ (exists x, presidual d r mus states lhs inputs x) /\
    forall l, pcandidate r m mus d l -> (exists y, presidual (pw_ops l d) r mus states lhs inputs y) /\
      let O := all_entries d in let O' := all_entries (pw_ops l d) in
      forall pen, penalty s (ncols O) = Some pen ->
        (forall x y, presidual d r mus states lhs inputs x -> presidual (pw_ops l d) r mus states lhs inputs y ->
           (x + bsum r (pen O) <= y + bsum r (pen O'))%R) /\
        forall i x y, i < r -> presidual_row d r mus states lhs inputs i x -> presidual_row (pw_ops l d) r mus states lhs inputs i y ->
          (x + pen O i <= y + pen O' i)%R.

(* fitting, then trying regularizers *)
Inductive ptuned (X : pext) (mus : list pval) (states lhs : list arr) (inputs : option (list arr)) : pmodel -> Prop :=
| pt_fit d d' : preach X d -> fit_args d mus states lhs inputs -> NoDup mus -> pm_intrusive d = false -> pfit X d mus states lhs inputs = (d', Ok tt) -> ptuned X mus states lhs inputs d'
| pt_reg d g d' : ptuned X mus states lhs inputs d -> valid_reg g -> pset_reg g d = (d', Ok tt) -> ptuned X mus states lhs inputs d'
| pt_refit d d' x : ptuned X mus states lhs inputs d -> prefit X d = (d', x) -> ptuned X mus states lhs inputs d'.   (* raising or not *)

(* a model all of whose operators have entries *)
Definition trained_p (r m : nat) (d : pmodel) : Prop := pm_ops d <> [] /\ 0 < r /\ 0 < m /\ Forall (psized r m) (pm_ops d).
Definition pinput_for (d : pmodel) (m : nat) (u : option vec) : Prop := existsb ptakes (pm_ops d) = true -> exists v, u = Some v /\ length v = m.
(* the input of step j *)
Definition pstep_input (d : pmodel) (inputs : option inputarg) (j : nat) : option arr :=
  if existsb ptakes (pm_ops d) then match inputs with
                                    | Some (UArr u) => Some (V (colv (nrows (atleast_2d u)) (atleast_2d u) j))
                                    | _ => None
                                    end
  else None.

(* ---- InterpModels whose operators are all learned ------------------------------------------------------------------------- *)
Definition learned_arg (a : parg) : Prop := exists t, a = POp (PItp t) /\ i_entries t = None.
(* one step on the model object *)
Definition on_base (f : pmodel -> pmodel * res unit) (d : imodel) : imodel := {| im_base := fst (f (im_base d)); im_sub := im_sub d; im_params := im_params d |}.
Inductive ireach (X : pext) : imodel -> Prop :=
| ir_new k args a d : Forall learned_arg args -> Forall valid_parg args -> valid_solver (x_lsvd (px_l X)) a -> imk_model k args a = Ok d -> ireach X d
| ir_solver d a : ireach X d -> valid_solver (x_lsvd (px_l X)) a -> ireach X (on_base (pset_solver a) d)
| ir_reg d g : ireach X d -> valid_reg g -> ireach X (on_base (pset_reg g) d)
| ir_fit d mus s l u : ireach X d -> fit_args (im_base d) mus s l u -> ireach X (fst (ifit X d mus s l u))
| ir_refit d : ireach X d -> ireach X (fst (irefit X d)).
(* the non-parametric model with operators of the same classes, all to be learned *)
Definition separate (d : pmodel) (s : lsq) : res model :=
  mk_model (pm_kind d) false (map (fun o => AOp {| mo_cls := pcls o; mo_ent := None |}) (pm_ops d)) (SObj s).

(* Prop_PObj.v -- property C76 (parametric models made of any operator objects). *)
From Coq Require Import String ZArith Reals Lra Lia List Permutation.
From Verif Require Import LinAlg MatAlg ObjProofs ObjEq ObjMain ObjLib MonoEx PObjProofs PObjLib PObjLib2 PObjRestart TupleFinal ItpModel.
From Verif Require Import SpecPObj.
#[local] Open Scope nat_scope.
#[local] Open Scope list_scope.

(* C76: a parametric model is made from operator objects exactly if a nonparametric one would be, the parametric ones do not disagree in the dimension of the parameter, and those without one can be given it. *)
Theorem C76_constructor :
  forall W P k l,
  (exists d, xmk W P k l = Ok d) <-> l <> [] /\ NoDup (map (optype P) (filter (learned P) l)) /\
  (forall a b, In a l -> In b l -> learned P a = false -> learned P b = false -> states P a = states P b /\ forall x y, inputs_of P a = Some x -> inputs_of P b = Some y -> x = y) /\
  agree_p P l /\ (forall p p' n, In (inr p) l -> In (inr p') l -> pw_p P p = None -> pw_p P p' = Some n -> exists q, pw_setp P p n = Ok q).
Proof. exact xmk_accepts. Qed.
Print Assumptions C76_constructor.

(* C76: operators that disagree in the dimension of the parameter raise DimensionalityError. *)
Theorem C76_parameter_dimensions :
  forall W P k l p p' n n',
  NoDup (map (optype P) (filter (learned P) l)) ->
  (forall a b, In a l -> In b l -> learned P a = false -> learned P b = false -> states P a = states P b /\ forall x y, inputs_of P a = Some x -> inputs_of P b = Some y -> x = y) ->
  In (inr p) l -> In (inr p') l -> pw_p P p = Some n -> pw_p P p' = Some n' -> n <> n' -> xmk W P k l = Err DimensionalityError.
Proof. exact xmk_disagree. Qed.
Print Assumptions C76_parameter_dimensions.

(* C76: what the constructor sets: the parameter dimension is that of the operators that have one, and the others are given it; the operators stay in their order. *)
Theorem C76_constructor_state :
  forall W P k l d,
  xmk W P k l = Ok d -> om_kind (xm_base d) = k /\ om_hasin (xm_base d) = existsb (has_in P) l /\
  (forall p n, In (inr p) l -> pw_p P p = Some n -> xm_p d = Some n) /\ ((forall p, In (inr p) l -> pw_p P p = None) -> xm_p d = None) /\
  length (om_ops (xm_base d)) = length l /\
  forall i a, nth_error l i = Some a -> match a with
    | inl o => nth_error (om_ops (xm_base d)) i = Some (inl o)
    | inr p => match pw_p P p, xm_p d with
               | None, Some n => exists p', pw_setp P p n = Ok p' /\ nth_error (om_ops (xm_base d)) i = Some (inr p')
               | _, _ => nth_error (om_ops (xm_base d)) i = Some (inr p)
               end
    end.
Proof. exact xmk_state. Qed.
Print Assumptions C76_constructor_state.

(* C76: afterwards all parametric operators have the parameter dimension of the model. *)
Theorem C76_one_dimension :
  forall W P k l d p,
  plain_setter P -> xmk W P k l = Ok d -> In (inr p) (om_ops (xm_base d)) -> pw_p P p = xm_p d.
Proof. exact xmk_all_p. Qed.
Print Assumptions C76_one_dimension.

(* C76: evaluate() returns a nonparametric model of the matching class made of the evaluated operators, in order, ready for use. *)
Theorem C76_evaluate :
  forall W P r m dom d Fs mu,
  xmodel_of W P r m dom d Fs -> dom mu ->
  exists e, xevaluate W P d mu = Ok e /\ om_kind e = om_kind (xm_base d) /\ model_of W r m e (at_mu Fs mu) /\ (om_hasin e = true -> om_hasin (xm_base d) = true) /\
    Forall2 (fun a o => match a with inl o' => o = o' | inr p => pw_eval P p mu = Ok o end) (om_ops (xm_base d)) (om_ops e).
Proof. exact xevaluate_model. Qed.
Print Assumptions C76_evaluate.

(* C76: if an operator cannot be evaluated at the parameter, evaluate(), rhs(), jacobian() and predict() raise what the first such operator raises. *)
Theorem C76_evaluate_raises :
  forall W P d pre p post mu x,
  om_ops (xm_base d) = pre ++ inr p :: post -> (forall p', In (inr p') pre -> exists o, pw_eval P p' mu = Ok o) -> pw_eval P p mu = Err x ->
  xevaluate W P d mu = Err x /\ (forall q u, xrhs W P d mu q u = Err x) /\ (forall q u, xjacobian W P d mu q u = Err x) /\ (forall q n u, xpredict W P d mu q n u = Err x) /\
  (forall t q f, xcont_rhs W P d t mu q f = Err x) /\ (forall t q f, xcont_jacobian W P d t mu q f = Err x).
Proof. exact xevaluate_raises. Qed.
Print Assumptions C76_evaluate_raises.

(* C76: rhs() is the sum of what the operators are at the parameter. *)
Theorem C76_rhs :
  forall W P r m dom d Fs mu q u ou,
  xmodel_of W P r m dom d Fs -> dom mu -> is_vec r q -> xinput d m u V ou ->
  exists y, xrhs W P d mu (V q) ou = Ok (V y) /\ is_vec r y /\ forall i, i < r -> vget y i = lsum (map (fun F => F mu q u i) Fs).
Proof. exact xrhs_total. Qed.
Print Assumptions C76_rhs.

(* C76: rhs() of a continuous model is that sum at the input the input function has at the given time. *)
Theorem C76_continuous_rhs :
  forall W P r m dom d Fs mu t q f,
  xmodel_of W P r m dom d Fs -> dom mu -> is_vec r q -> is_vec m (f t) ->
  exists y, xcont_rhs W P d t mu (V q) (Some (fun s => V (f s))) = Ok (V y) /\ is_vec r y /\ forall i, i < r -> vget y i = lsum (map (fun F => F mu q (f t) i) Fs).
Proof. exact xcont_total. Qed.
Print Assumptions C76_continuous_rhs.

(* C76: and jacobian() of a continuous model is the derivative of that rhs(). *)
Theorem C76_continuous_jacobian :
  forall W P r m dom d Fs mu t q f,
  0 < r -> xmodel_of W P r m dom d Fs -> dom mu -> Forall2 (xdifferentiates P r m mu) (om_ops (xm_base d)) Fs -> is_vec r q -> is_vec m (f t) ->
  exists J, xcont_jacobian W P d t mu q (Some f) = Ok J /\ is_mat r r J /\ forall dir, is_vec r dir -> exists g : R -> vec,
    (forall s, xcont_rhs W P d t mu (V (along q dir s)) (Some (fun s => V (f s))) = Ok (V (g s))) /\ forall i, i < r -> derivable_pt_lim (fun s => vget (g s) i) 0 (vget (matvec J dir) i).
Proof. exact xcont_derivative. Qed.
Print Assumptions C76_continuous_jacobian.

(* C76: without an input function both raise TypeError if the evaluated model has inputs. *)
Theorem C76_continuous_needs_input :
  forall W P d t mu q q' e,
  xevaluate W P d mu = Ok e -> om_hasin e = true -> xcont_rhs W P d t mu q None = Err TypeError /\ xcont_jacobian W P d t mu q' None = Err TypeError.
Proof. exact xcont_needs_input. Qed.
Print Assumptions C76_continuous_needs_input.

(* C76: if the jacobian() of each evaluated operator is its derivative, jacobian() is the derivative of rhs() at the parameter. *)
Theorem C76_jacobian :
  forall W P r m dom d Fs mu q u ou oa,
  0 < r -> xmodel_of W P r m dom d Fs -> dom mu -> Forall2 (xdifferentiates P r m mu) (om_ops (xm_base d)) Fs -> is_vec r q -> xinput d m u (fun v => v) ou -> xinput d m u V oa ->
  exists J, xjacobian W P d mu q ou = Ok J /\ is_mat r r J /\ forall dir, is_vec r dir -> exists g : R -> vec,
    (forall t, xrhs W P d mu (V (along q dir t)) oa = Ok (V (g t))) /\ forall i, i < r -> derivable_pt_lim (fun t => vget (g t) i) 0 (vget (matvec J dir) i).
Proof. exact xjacobian_derivative. Qed.
Print Assumptions C76_jacobian.

(* C76: predict() of a discrete model returns a first column q0, and each next one is the sum of what the operators are at the parameter, the column before and its input. *)
Theorem C76_predict :
  forall W P r m dom d Fs mu q0 n inputs,
  0 < m -> xmodel_of W P r m dom d Fs -> dom mu -> is_vec r q0 -> xenough d m inputs n -> 1 <= n ->
  exists Q, xpredict W P d mu (V q0) (Z.of_nat n) inputs = Ok Q /\ is_mat r n Q /\ colv r Q 0 = q0 /\
    forall j u, j + 1 < n -> is_vec m u -> (om_hasin (xm_base d) = true -> forall U, inputs = Some (UArr U) -> u = colv m (atleast_2d U) j) ->
      forall i, i < r -> mget Q i (j + 1) = lsum (map (fun F => F mu (colv r Q j) u i) Fs).
Proof. exact xpredict_recurrence. Qed.
Print Assumptions C76_predict.

(* C76: a shorter prediction is the beginning of a longer one. *)
Theorem C76_predict_prefix :
  forall W P r m dom d Fs mu q0 n n' inputs Q,
  0 < m -> xmodel_of W P r m dom d Fs -> dom mu -> is_vec r q0 -> xenough d m inputs n -> 1 <= n' -> n' <= n ->
  xpredict W P d mu (V q0) (Z.of_nat n) inputs = Ok Q -> xpredict W P d mu (V q0) (Z.of_nat n') inputs = Ok (mcols 0 n' Q).
Proof. exact xpredict_prefix. Qed.
Print Assumptions C76_predict_prefix.

(* C76: restarting from any column with the remaining inputs continues the prediction. *)
Theorem C76_predict_restart :
  forall W P r m dom d Fs mu q0 n j inputs Q,
  0 < m -> xmodel_of W P r m dom d Fs -> dom mu -> is_vec r q0 -> xenough d m inputs n -> j < n ->
  xpredict W P d mu (V q0) (Z.of_nat n) inputs = Ok Q -> xpredict W P d mu (V (colv r Q j)) (Z.of_nat (n - j)) (later j inputs) = Ok (mcols j n Q).
Proof. exact xpredict_restart. Qed.
Print Assumptions C76_predict_restart.

(* C76: an initial state of another size raises DimensionalityError, and less than one step ValueError. *)
Theorem C76_predict_rejects :
  forall W P r m dom d Fs mu q0 n inputs,
  0 < m -> xmodel_of W P r m dom d Fs -> dom mu ->
  (match q0 with V q => length q <> r | M _ => True end -> xpredict W P d mu q0 n inputs = Err DimensionalityError) /\
  (forall q, q0 = V q -> is_vec r q -> (n < 1)%Z -> xpredict W P d mu q0 n inputs = Err ValueError).
Proof. exact xpredict_rejects. Qed.
Print Assumptions C76_predict_rejects.

(* C76: if galerkin() of each operator is its projection at every parameter, the model galerkin() returns is of the same class and its rhs() is the projection of the rhs() at every parameter. *)
Theorem C76_galerkin :
  forall W P n r m dom d Fs Vr Wr d',
  Forall2 (xprojects P n r m (xm_p d') dom Vr Wr) (om_ops (xm_base d)) Fs -> xgalerkin W P d Vr Wr = Ok d' ->
  om_kind (xm_base d') = om_kind (xm_base d) /\ exists Fs', xmodel_of W P r m dom d' Fs' /\
    forall mu, dom mu -> projection n r m Vr (match Wr with Some A => A | None => Vr end) (total (at_mu Fs mu)) (total (at_mu Fs' mu)).
Proof. exact xgalerkin_projects. Qed.
Print Assumptions C76_galerkin.

(* C76: == of parametric models is symmetric if == of the operators is. *)
Theorem C76_eq_symmetric :
  forall W P a b,
  (forall x y, pw_eq P x y = pw_eq P y x) -> xeq W P a b = xeq W P b a.
Proof. exact xeq_symmetric. Qed.
Print Assumptions C76_eq_symmetric.

(* C76: equal parametric models agree in class and dimensions and their operators can be paired. *)
Theorem C76_eq_paired :
  forall W P a b,
  xeq W P a b = true -> om_kind (xm_base a) = om_kind (xm_base b) /\ om_r (xm_base a) = om_r (xm_base b) /\ om_m (xm_base a) = om_m (xm_base b) /\
  exists l, Permutation l (om_ops (xm_base b)) /\ Forall2 (fun x y => pw_eq P x y = true) (om_ops (xm_base a)) l.
Proof. exact xeq_means_paired. Qed.
Print Assumptions C76_eq_paired.

(* C76: if copies of the operators equal the originals and keep their parameter dimension, copy() of the model equals the model and has its parameter dimension. *)
Theorem C76_copy :
  forall W P k l d,
  plain_setter P -> xmk W P k l = Ok d -> (forall a, In a (om_ops (xm_base d)) -> xcopies P a) ->
  exists d', xcopy W P d = Ok d' /\ om_kind (xm_base d') = k /\ xeq W P d' d = true /\ xm_p d' = xm_p d.
Proof. exact xcopy_equal. Qed.
Print Assumptions C76_copy.

(* C76: the setter of the parameter dimension of the operators of the library changes that dimension only. *)
Theorem C76_library_setter :
  forall X solve junk eqv,
  plain_setter (lib_pworld X solve junk eqv).
Proof. exact lib_setter. Qed.
Print Assumptions C76_library_setter.

(* C76: an affine operator of the library is the combination of its terms with the coefficients at the parameter. *)
Theorem C76_library_affine :
  forall X solve junk eqv r m x a ops,
  0 < r -> 0 < m -> affine_of r m a ops -> xdescribed (lib_pworld X solve junk eqv) r m x (affine_dom x a) (inr (inl a)) (affine_fn a ops).
Proof. exact lib_affine. Qed.
Print Assumptions C76_library_affine.

(* C76: and it cannot be evaluated at a parameter of another length than its parameter dimension. *)
Theorem C76_library_affine_rejects :
  forall X solve junk eqv a mu n,
  a_entries a <> None -> a_pdim a = Some n -> plen mu <> n -> pw_eval (lib_pworld X solve junk eqv) (inl a) mu = Err ValueError.
Proof. exact lib_affine_rejects. Qed.
Print Assumptions C76_library_affine_rejects.

(* C76: an interpolated operator of the library is the operator whose entries are the value of the interpolator. *)
Theorem C76_library_interpolated :
  forall X solve junk eqv r m x t f A,
  0 < r -> 0 < m -> i_entries t <> None -> i_interp t = Some f -> xdescribed (lib_pworld X solve junk eqv) r m x (interpolated_dom r m t f A) (inr (inr t)) (interpolated_fn t A).
Proof. exact lib_interpolated. Qed.
Print Assumptions C76_library_interpolated.

(* C76: galerkin() of an affine operator of the library, if it returns, is the projection of that operator at every parameter. *)
Theorem C76_library_affine_projects :
  forall X solve junk eqv n r m x a ops ag Vr Wr,
  solve_spec solve -> (forall k, length (junk k) = k) -> 0 < n -> 0 < r -> 0 < m -> affine_of n m a ops ->
  is_mat n r Vr -> is_mat n r (match Wr with Some A => A | None => Vr end) ->
  (let G := matmul (mT (match Wr with Some A => A | None => Vr end)) Vr in G = eye r \/ allclose G (eye r) = false) ->
  pw_galerkin (lib_pworld X solve junk eqv) (inl a) Vr Wr = Ok ag ->
  xprojects (lib_pworld X solve junk eqv) n r m x (affine_dom x a) Vr Wr (inr (inl a)) (affine_fn a ops).
Proof. exact lib_affine_projects. Qed.
Print Assumptions C76_library_affine_projects.

(* C76: and it returns for bases that are orthonormal to each other. *)
Theorem C76_library_affine_projectable :
  forall X solve junk eqv n r m a ops Vr Wr,
  solve_spec solve -> (forall k, length (junk k) = k) -> 0 < n -> 0 < r -> 0 < m -> affine_of n m a ops ->
  is_mat n r Vr -> is_mat n r (match Wr with Some A => A | None => Vr end) -> matmul (mT (match Wr with Some A => A | None => Vr end)) Vr = eye r -> (forall d, a_cls a = CPoly d -> newton_guard d n) ->
  exists ag, pw_galerkin (lib_pworld X solve junk eqv) (inl a) Vr Wr = Ok ag.
Proof. exact lib_affine_projectable. Qed.
Print Assumptions C76_library_affine_projectable.

(* C76: jacobian() of what an affine operator evaluates to is its derivative. *)
Theorem C76_library_affine_derivative :
  forall X solve junk eqv r m a ops mu,
  (forall k, length (junk k) = k) -> 0 < r -> 0 < m -> affine_of r m a ops -> (forall d, a_cls a = CPoly d -> newton_guard d r) ->
  affine_dom None a mu -> xdifferentiates (lib_pworld X solve junk eqv) r m mu (inr (inl a)) (affine_fn a ops).
Proof. exact lib_affine_differentiates. Qed.
Print Assumptions C76_library_affine_derivative.

(* C76: and so is that of an interpolated operator. *)
Theorem C76_library_interpolated_derivative :
  forall X solve junk eqv r m t f A mu,
  (forall k, length (junk k) = k) -> 0 < r -> 0 < m -> i_entries t <> None -> i_interp t = Some f -> (forall d, i_cls t = CPoly d -> newton_guard d r) ->
  interpolated_dom r m t f A mu -> xdifferentiates (lib_pworld X solve junk eqv) r m mu (inr (inr t)) (interpolated_fn t A).
Proof. exact lib_interpolated_differentiates. Qed.
Print Assumptions C76_library_interpolated_derivative.

(* ---- examples ---- *)
(* a parametric operator of a class of a user on one state, q -> (a mu_1) q: its a, its parameter dimension if known *)
Definition tw : world := scalar_world same_value.
Definition coef (a : R) (mu : pval) : R := (a * match mu with PS x => x | PV v => vget v 0 end)%R.
Definition same_kind (a b : (nat * R) + (R * option nat)) : bool :=
  match a, b with
  | inl x, inl y => same_value x y
  | inr x, inr y => (if Req_EM_T (fst x) (fst y) then true else false) && odim_eqb (snd x) (snd y)
  | _, _ => false
  end.
Definition tp : pworld tw :=
  {| pobj := (R * option nat)%type; pw_ent := fun _ => None; pw_type := fun _ => 60; pw_dim := fun _ => Some 1; pw_in := fun _ => None; pw_p := snd;
     pw_setp := fun o n => Ok (fst o, Some n);
     pw_eval := fun o mu => if match snd o with Some n => plen mu =? n | None => true end then Ok ((0, coef (fst o) mu) : obj tw) else Err ValueError;
     pw_galerkin := fun o Vr Wr => Ok (fst o, None); pw_copy := fun o => Ok o; pw_eq := same_kind |}.
Definition dom2 (mu : pval) : Prop := plen mu = 2.
Definition Fp (a : R) : pfn := fun mu q _ i => (coef a mu * vget q i)%R.
Definition Fc (a : R) : pfn := fun mu q _ i => (a * vget q i)%R.
Definition tl : list (obj tw + pobj tp) := [inl (0, 3%R); inr (2%R, Some 2); inr (5%R, None)].
Lemma tw_diff a m : differentiates tw 1 m a (fun q _ i => (snd a * vget q i)%R).
Proof. intros q u ou Hq _. exists (JMat [[snd a]]). split; [reflexivity|]. split; [intros A K; injection K as <-; split; [reflexivity|repeat constructor]|].
  intros dir i Hd Hi. destruct q as [|x [|]]; try discriminate. destruct dir as [|y [|]]; try discriminate. assert (i = 0) by lia. subst i.
  cbn [bsum jget]. unfold mget, vget, along. cbn. replace (0 + snd a * y)%R with (snd a * (0 + 1 * y))%R by ring.
  intros eps He. exists (mkposreal 1 Rlt_0_1). intros h Hh _. replace (_ - _)%R with 0%R by (cbn; unfold vget; cbn; field; auto). rewrite Rabs_R0. auto. Qed.
Lemma tp_described a y m : y = Some 2 \/ y = None -> xdescribed tp 1 m (Some 2) dom2 (inr (a, y)) (Fp a).
Proof. intros Hy p' HW. split; [reflexivity|]. assert (K : p' = (a, Some 2)) by (destruct Hy as [ -> | -> ]; cbn in HW; congruence). subst p'. intros mu Hmu. exists (0, coef a mu).
  split. { cbn. rewrite Hmu. reflexivity. } split; [apply (scalar_behaves same_value (0, coef a mu) m)|discriminate]. Qed.
Lemma tl_described m : Forall2 (xdescribed tp 1 m (Some 2) dom2) tl [Fc 3; Fp 2; Fp 5].
Proof. constructor; [intros mu; apply (scalar_behaves same_value (0, 3%R) m)|]. constructor; [apply tp_described; auto|]. constructor; [apply tp_described; auto|constructor]. Qed.
Example C76_objects_example : exists d, xmk tw tp KDiscrete tl = Ok d /\ xm_p d = Some 2 /\ xmodel_of tw tp 1 1 dom2 d [Fc 3; Fp 2; Fp 5] /\ plain_setter tp /\ In (inr (5%R, Some 2)) (om_ops (xm_base d)) /\
  Forall2 (xdifferentiates tp 1 1 (PV [10; 1]%R)) (om_ops (xm_base d)) [Fc 3; Fp 2; Fp 5] /\ xinput d 1 [0]%R V None /\ xenough d 1 None 3 /\
  xrhs tw tp d (PV [10; 1]%R) (V [7]%R) None = Ok (V [511]%R) /\ xpredict tw tp d (PV [10; 1]%R) (V [1]%R) 2 None = Ok [[1; 73]]%R /\
  (* a parameter of another length: the first operator that cannot be evaluated decides *)
  pw_eval tp (2%R, Some 2) (PS 10%R) = Err ValueError /\ xrhs tw tp d (PS 10%R) (V [7]%R) None = Err ValueError.
Proof. eexists. split; [reflexivity|]. split; [reflexivity|]. split. { exists KDiscrete, tl. split; [reflexivity|]. apply (tl_described 1). }
  split. { intros p n p' E. injection E as <-. repeat (split; [reflexivity|]). reflexivity. } split; [right; right; left; reflexivity|].
  split. { cbn. constructor; [apply (tw_diff (0, 3%R))|]. constructor; [|constructor; [|constructor]]; intros o E; cbn in E; injection E as <-; [apply (tw_diff (0, coef 2 (PV [10; 1]%R)))|apply (tw_diff (0, coef 5 (PV [10; 1]%R)))]. }
  split. { split; [reflexivity|discriminate]. } split; [discriminate|]. split. { cbn. unfold coef, vget. cbn. do 3 f_equal. ring. }
  split. { unfold xpredict, opredict. change (Z.to_nat 2) with 2. cbn. unfold coef, vget. cbn. repeat match goal with |- Ok _ = Ok _ => apply f_equal | |- (_ :: _) = (_ :: _) => apply (f_equal2 cons) | |- _ => first [reflexivity | ring] end. }
  split; reflexivity. Qed.
(* two parameter dimensions; no operators *)
Example C76_constructor_example : xmk tw tp KDiscrete [inr (2%R, Some 2); inr (2%R, Some 3)] = Err DimensionalityError /\ NoDup (map (optype tp) (filter (learned tp) [inr (2%R, Some 2); inr (2%R, Some 3)])) /\
  xmk tw tp KDiscrete [] = Err ValueError /\ agree_p tp tl.
Proof. split; [reflexivity|]. split; [constructor|]. split; [reflexivity|]. intros p p' n n' Hp Hp' E E'. cbn in Hp, Hp'. destruct Hp as [H|[H|[H|[]]]], Hp' as [H'|[H'|[H'|[]]]]; try discriminate; injection H as <-; injection H' as <-; cbn in E, E'; congruence. Qed.
(* galerkin with V = [2]; the projections lose the parameter dimension *)
Lemma proj_self a m mu : projection 1 1 m [[2]]%R [[2]]%R (Fp a mu) (Fp a mu).
Proof. intros q u i Hq _ Hi. destruct q as [|x [|]]; try discriminate. assert (i = 0) by lia. subst i. cbn. unfold mget, Fp, vget. cbn. ring. Qed.
Lemma proj_selfc a m mu : projection 1 1 m [[2]]%R [[2]]%R (Fc a mu) (Fc a mu).
Proof. intros q u i Hq _ Hi. destruct q as [|x [|]]; try discriminate. assert (i = 0) by lia. subst i. cbn. unfold mget, Fc, vget. cbn. ring. Qed.
Example C76_galerkin_example : exists d d', xmk tw tp KDiscrete tl = Ok d /\ xgalerkin tw tp d [[2]]%R None = Ok d' /\ xm_p d' = None /\ Forall2 (xprojects tp 1 1 1 (xm_p d') dom2 [[2]]%R None) (om_ops (xm_base d)) [Fc 3; Fp 2; Fp 5].
Proof. do 2 eexists. split; [reflexivity|]. split; [reflexivity|]. split; [reflexivity|]. cbn.
  assert (K : forall a y, xprojects tp 1 1 1 None dom2 [[2]]%R None (inr (a, y)) (Fp a)).
  { intros a y. split; [reflexivity|]. exists (inr (a, None)), (Fp a). split; [reflexivity|]. split; [|intros; apply proj_self]. intros p' E. cbn in E. subst p'. split; [reflexivity|]. intros mu Hmu. exists (0, coef a mu). split; [reflexivity|]. split; [apply (scalar_behaves same_value (0, coef a mu) 1)|discriminate]. }
  constructor; [|constructor; [apply K|constructor; [apply K|constructor]]]. split; [reflexivity|]. exists (inl (1, 3%R)), (Fc 3). split; [reflexivity|]. split; [intros mu; apply (scalar_behaves same_value (1, 3%R) 1)|intros; apply proj_selfc]. Qed.
Example C76_copy_example : exists d, xmk tw tp KDiscrete tl = Ok d /\ (forall x y, pw_eq tp x y = pw_eq tp y x) /\ (forall a, In a (om_ops (xm_base d)) -> xcopies tp a).
Proof. eexists. split; [reflexivity|]. split.
  - intros [a|a] [b|b]; cbn; auto. + unfold same_value. destruct (Req_EM_T (snd a) (snd b)), (Req_EM_T (snd b) (snd a)); congruence.
    + destruct (Req_EM_T (fst a) (fst b)), (Req_EM_T (fst b) (fst a)); try congruence; cbn; auto. destruct (snd a), (snd b); cbn; auto. apply Nat.eqb_sym.
  - cbn. intros a [<-|[<-|[<-|[]]]].
    + exists (inl (1, 3%R)). cbn. split; [reflexivity|]. split; [|auto 10]. unfold same_value. cbn. destruct (Req_EM_T 3 3); congruence.
    + exists (inr (2%R, Some 2)). cbn. split; [auto|]. split; [|auto 10]. destruct (Req_EM_T 2 2); [reflexivity|congruence].
    + exists (inr (5%R, Some 2)). cbn. split; [auto|]. split; [|auto 10]. destruct (Req_EM_T 5 5); [reflexivity|congruence]. Qed.
(* the library: mu_1 A_1 + mu_2 A_2 with A_1 = [1], A_2 = [10]; an interpolated c(mu) *)
Definition af : aff := {| a_cls := CLin; a_theta := identity; a_nterms := 2; a_pdim := None; a_entries := Some [OLin [[1]]%R; OLin [[10]]%R] |}.
Definition ti : itp := {| i_cls := CConst; i_pdim := Some 1; i_params := Some [PS 0%R; PS 1%R]; i_entries := Some [OConst [0]%R; OConst [1]%R]; i_interp := Some (fun mu => Ok [[unscalar mu]]); i_iclass := None |}.
Example C76_library_example : affine_of 1 1 af [OLin [[1]]%R; OLin [[10]]%R] /\ affine_dom (Some 2) af (PV [3; 4]%R) /\ interpolated_dom 1 1 ti (fun mu => Ok [[unscalar mu]]) (fun mu => [[unscalar mu]]) (PS 7%R) /\
  forall X solve junk eqv, exists d, xmk (lib_world solve junk) (lib_pworld X solve junk eqv) KDiscrete [inr (inl af); inl (knw (OConst [5]%R))] = Ok d /\
    xrhs _ _ d (PV [3; 4]%R) (V [2]%R) None = Ok (V [91]%R) /\ xrhs _ _ d (PV [3]%R) (V [2]%R) None <> Ok (V [91]%R).
Proof. split. { split; [reflexivity|]. split; [|split; [reflexivity|cbn; lia]]. repeat constructor. }
  split. { split; [|reflexivity]. intros n [H|H]; cbn in H; [injection H as <-; reflexivity|discriminate]. } split. { split; [reflexivity|]. cbn. split; [reflexivity|]. split; [reflexivity|repeat constructor]. }
  intros. eexists. split; [reflexivity|]. split.
  - cbn. do 3 f_equal. ring.
  - cbn. intros K. injection K as K. lra. Qed.
(* a continuous model with an input operator *)
Example C76_input_example : forall X solve junk eqv, exists d e, xmk (lib_world solve junk) (lib_pworld X solve junk eqv) KContinuous [inr (inl af); inl (knw (OInp [[5]]%R))] = Ok d /\
  xevaluate _ _ d (PV [3; 4]%R) = Ok e /\ om_hasin e = true /\ xcont_rhs _ _ d 6%R (PV [3; 4]%R) (V [2]%R) (Some (fun t => V [t])) = Ok (V [116]%R).
Proof. intros. do 2 eexists. split; [reflexivity|]. split; [reflexivity|]. split; [reflexivity|]. cbn. do 3 f_equal. ring. Qed.
(* an affine operator on two states and a basis of one vector *)
Definition af2 : aff := {| a_cls := CLin; a_theta := identity; a_nterms := 2; a_pdim := None; a_entries := Some [OLin [[1; 2]; [3; 4]]%R; OLin [[5; 6]; [7; 8]]%R] |}.
Example C76_library_projection_example : affine_of 2 1 af2 [OLin [[1; 2]; [3; 4]]%R; OLin [[5; 6]; [7; 8]]%R] /\ is_mat 2 1 [[0]; [1]]%R /\ matmul (mT [[0]; [1]]%R) [[0]; [1]]%R = eye 1 /\
  (forall d, a_cls af2 = CPoly d -> newton_guard d 2) /\ affine_dom None af2 (PV [3; 4]%R) /\ solve_spec (fun _ _ => Err ValueError).
Proof. split. { split; [reflexivity|]. split; [|split; [reflexivity|cbn; lia]]. repeat constructor. }
  split. { split; [reflexivity|repeat constructor]. } split. { cbn. repeat match goal with |- (_ :: _) = (_ :: _) => apply (f_equal2 cons) | |- _ => first [reflexivity | ring] end. }
  split; [discriminate|]. split; [split; [intros n [H|H]; discriminate H|reflexivity]|]. intros r c A B X _ _ H. discriminate. Qed.

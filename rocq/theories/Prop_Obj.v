(* Prop_Obj.v -- property C72 (models made of any operator objects). *)
From Coq Require Import String ZArith Reals Lra Lia List Permutation.
From Verif Require Import LinAlg MatAlg TupleFinal JacProofs MonoEx ObjProofs ObjEq ObjMain ObjLib ObjRestart.
From Verif Require Import SpecAnyObj.
#[local] Open Scope nat_scope.
#[local] Open Scope list_scope.

(* C72: a model is made from operator objects exactly if there is one, no two of those to be learned are of one class, and the others agree in state dimension and in input dimension. *)
Theorem C72_constructor :
  forall W k l,
  (exists d, omk W k l = Ok d) <-> l <> [] /\ NoDup (map (w_type W) (filter (uncal W) l)) /\
  forall a b, In a l -> In b l -> uncal W a = false -> uncal W b = false -> w_dim W a = w_dim W b /\ forall x y, w_in W a = Some x -> w_in W b = Some y -> x = y.
Proof. exact omk_accepts. Qed.
Print Assumptions C72_constructor.

(* C72: what the constructor sets. *)
Theorem C72_constructor_state :
  forall W k l d,
  omk W k l = Ok d -> om_kind d = k /\ om_ops d = l /\ om_hasin d = existsb (takes_in W) l /\
  (forall i, In i (om_infer d) <-> exists o, nth_error l i = Some o /\ uncal W o = true) /\ (forall i, In i (om_known d) <-> exists o, nth_error l i = Some o /\ uncal W o = false) /\
  (forall o, In o l -> uncal W o = false -> om_r d = w_dim W o /\ forall x, w_in W o = Some x -> om_m d = x) /\ (existsb (takes_in W) l = false -> om_m d = Some 0).
Proof. exact omk_state. Qed.
Print Assumptions C72_constructor_state.

(* C72: operators with given entries that agree in their dimensions make a model that is ready for use. *)
Theorem C72_constructor_behaves :
  forall W k r m l fs,
  l <> [] -> Forall2 (behaves W r m) l fs -> exists d, omk W k l = Ok d /\ model_of W r m d fs /\ om_kind d = k /\ om_ops d = l /\ om_r d = Some r /\
  om_hasin d = existsb (takes_in W) l /\ om_m d = Some (if om_hasin d then m else 0) /\ otrained W d = Ok tt.
Proof. exact omk_behaves. Qed.
Print Assumptions C72_constructor_behaves.

(* C72: rhs() is the sum of the functions its operators are. *)
Theorem C72_rhs :
  forall W r m d fs q u ou,
  model_of W r m d fs -> is_vec r q -> model_input d m u V ou ->
  exists y, orhs W d (V q) ou = Ok (V y) /\ is_vec r y /\ forall i, i < r -> vget y i = total fs q u i.
Proof. exact orhs_total. Qed.
Print Assumptions C72_rhs.

(* C72: rhs() raises what the first failing operator raises. *)
Theorem C72_rhs_raises :
  forall W d pre o post q ou e,
  om_ops d = pre ++ o :: post -> (forall p, In p pre -> exists y, w_apply W p (V q) ou = Ok (V y) /\ length y = length q) ->
  w_apply W o (V q) ou = Err e -> orhs W d (V q) ou = Err e.
Proof. exact orhs_raises. Qed.
Print Assumptions C72_rhs_raises.

(* C72: if the jacobian() of each operator is the derivative of its apply(), the jacobian() of the model is the derivative of its rhs(). *)
Theorem C72_jacobian :
  forall W r m d fs q u ou oa,
  0 < r -> model_of W r m d fs -> Forall2 (differentiates W r m) (om_ops d) fs -> is_vec r q -> model_input d m u (fun v => v) ou -> model_input d m u V oa ->
  exists J, ojacobian W d q ou = Ok J /\ is_mat r r J /\ forall dir, is_vec r dir -> exists g : R -> vec,
    (forall t, orhs W d (V (along q dir t)) oa = Ok (V (g t))) /\ forall i, i < r -> derivable_pt_lim (fun t => vget (g t) i) 0 (vget (matvec J dir) i).
Proof. exact ojacobian_derivative. Qed.
Print Assumptions C72_jacobian.

(* C72: rhs() of a continuous model evaluates the input function at the given time; without one it raises TypeError if there are inputs. *)
Theorem C72_continuous_rhs :
  forall W d t q f,
  ocont_rhs W d t q f = if om_hasin d then match f with Some g => orhs W d q (Some (g t)) | None => Err TypeError end else orhs W d q None.
Proof. exact ocont_rhs_input. Qed.
Print Assumptions C72_continuous_rhs.

(* C72: and so does jacobian(). *)
Theorem C72_continuous_jacobian :
  forall W d t q f,
  ocont_jacobian W d t q f = if om_hasin d then match f with Some g => ojacobian W d q (Some (g t)) | None => Err TypeError end else ojacobian W d q None.
Proof. exact ocont_jac_input. Qed.
Print Assumptions C72_continuous_jacobian.

(* C72: if galerkin() of each operator is its projection, galerkin() of the model is a model of the same class whose rhs() is the projection of the rhs(). *)
Theorem C72_galerkin :
  forall W n r m d fs Vr Wr,
  model_of W n m d fs -> Forall2 (projects W n r m Vr Wr) (om_ops d) fs ->
  exists d' fs', ogalerkin W d Vr Wr = Ok d' /\ om_kind d' = om_kind d /\ model_of W r m d' fs' /\ om_hasin d' = om_hasin d /\
    projection n r m Vr (match Wr with Some A => A | None => Vr end) (total fs) (total fs').
Proof. exact ogalerkin_projects. Qed.
Print Assumptions C72_galerkin.

(* C72: predict() of a discrete model returns a first column q0 and each next one is rhs() of the one before and its input. *)
Theorem C72_predict :
  forall W r m d fs q0 n inputs,
  0 < m -> model_of W r m d fs -> is_vec r q0 -> oenough d m inputs n -> 1 <= n ->
  exists Q, opredict W d (V q0) (Z.of_nat n) inputs = Ok Q /\ is_mat r n Q /\ colv r Q 0 = q0 /\
    forall j, j + 1 < n -> orhs W d (V (colv r Q j)) (ostep d inputs j) = Ok (V (colv r Q (j + 1))).
Proof. exact opredict_recurrence. Qed.
Print Assumptions C72_predict.

(* C72: a shorter prediction is the beginning of a longer one. *)
Theorem C72_predict_prefix :
  forall W r m d fs q0 n n' inputs Q,
  0 < m -> model_of W r m d fs -> is_vec r q0 -> oenough d m inputs n -> 1 <= n' -> n' <= n ->
  opredict W d (V q0) (Z.of_nat n) inputs = Ok Q -> opredict W d (V q0) (Z.of_nat n') inputs = Ok (mcols 0 n' Q).
Proof. exact opredict_prefix. Qed.
Print Assumptions C72_predict_prefix.

(* C72: restarting from any column with the remaining inputs continues the prediction. *)
Theorem C72_predict_restart :
  forall W r m d fs q0 n j inputs Q,
  0 < m -> model_of W r m d fs -> is_vec r q0 -> oenough d m inputs n -> j < n ->
  opredict W d (V q0) (Z.of_nat n) inputs = Ok Q -> opredict W d (V (colv r Q j)) (Z.of_nat (n - j)) (later j inputs) = Ok (mcols j n Q).
Proof. exact opredict_restart. Qed.
Print Assumptions C72_predict_restart.

(* C72: what predict() rejects, and how. *)
Theorem C72_predict_rejects :
  forall W r m d fs q0 n inputs,
  0 < m -> model_of W r m d fs ->
  (match q0 with V q => length q <> r | M _ => True end -> opredict W d q0 n inputs = Err DimensionalityError) /\
  (forall q, q0 = V q -> is_vec r q ->
     (n < 1)%Z \/ (om_hasin d = true /\ (inputs = None \/ exists u, inputs = Some (UArr u) /\ (nrows (atleast_2d u) <> m \/ (Z.of_nat (ncols (atleast_2d u)) < n - 1)%Z))) ->
     opredict W d q0 n inputs = Err ValueError).
Proof. exact opredict_rejects. Qed.
Print Assumptions C72_predict_rejects.

(* C72: == of models is symmetric if == of the operators is, although partners are searched greedily. *)
Theorem C72_eq_symmetric :
  forall W a b,
  (forall x y, w_eq W x y = w_eq W y x) -> omodel_eqb W a b = omodel_eqb W b a.
Proof. exact oeq_symmetric. Qed.
Print Assumptions C72_eq_symmetric.

(* C72: equal models agree in class and dimensions and their operators can be paired. *)
Theorem C72_eq_paired :
  forall W a b,
  omodel_eqb W a b = true -> same_frame a b /\ paired W a b.
Proof. exact oeq_means_paired. Qed.
Print Assumptions C72_eq_paired.

(* C72: if == of the operators is an equivalence, models are equal exactly if they agree in class and dimensions and their operators can be paired. *)
Theorem C72_eq_equivalence :
  forall W a b,
  equivalence_eq W -> (omodel_eqb W a b = true <-> same_frame a b /\ paired W a b).
Proof. exact oeq_equivalence. Qed.
Print Assumptions C72_eq_equivalence.

(* C72: if copies of the operators equal the originals, copy() of the model equals the model. *)
Theorem C72_copy :
  forall W k l d,
  omk W k l = Ok d -> (forall o, In o l -> faithful_copy W o) ->
  exists d', ocopy W d = Ok d' /\ omodel_eqb W d' d = true /\ om_infer d' = om_infer d /\ om_known d' = om_known d /\ om_hasin d' = om_hasin d.
Proof. exact ocopy_equal. Qed.
Print Assumptions C72_copy.

(* C72: models of the operators of the library are models of operator objects in this sense. *)
Theorem C72_library :
  forall solve junk d,
  (forall q u, orhs _ (view solve junk d) q u = rhs d q u) /\ (forall q u, ojacobian _ (view solve junk d) q u = model_jacobian junk d q u) /\
  (forall q0 n inputs, opredict _ (view solve junk d) q0 n inputs = predict d q0 n inputs) /\
  (forall d2, m_frozen d = false -> m_frozen d2 = false -> omodel_eqb _ (view solve junk d) (view solve junk d2) = model_eqb d d2).
Proof. exact lib_view. Qed.
Print Assumptions C72_library.

(* C72: the operators of the library behave like the functions entries @ datablock. *)
Theorem C72_library_operators :
  forall solve junk r m e,
  0 < r -> 0 < m -> wf_op r m e ->
  behaves (lib_world solve junk) r m {| mo_cls := cls_of e; mo_ent := Some e |} (fun q u i => vget (matvec (entries2 e) (datavec e q u)) i).
Proof. exact lib_behaves. Qed.
Print Assumptions C72_library_operators.

(* C72: and their jacobian() is the derivative. *)
Theorem C72_library_jacobian :
  forall solve junk r m e,
  0 < r -> 0 < m -> wf_op r m e -> (forall k, length (junk k) = k) -> (forall dg H, e = OPoly dg H -> newton_guard dg r) ->
  differentiates (lib_world solve junk) r m {| mo_cls := cls_of e; mo_ent := Some e |} (fun q u i => vget (matvec (entries2 e) (datavec e q u)) i).
Proof. exact lib_differentiates. Qed.
Print Assumptions C72_library_jacobian.

(* C72: and their galerkin() is the projection, for bases with Wr^T Vr = I. *)
Theorem C72_library_galerkin :
  forall solve junk n r m e Vr Wr,
  solve_spec solve -> (forall k, length (junk k) = k) -> 0 < n -> 0 < r -> 0 < m -> wf_op n m e -> is_mat n r Vr -> is_mat n r (match Wr with Some A => A | None => Vr end) ->
  (forall dg H, e = OPoly dg H -> newton_guard dg n) -> matmul (mT (match Wr with Some A => A | None => Vr end)) Vr = eye r ->
  projects (lib_world solve junk) n r m Vr Wr {| mo_cls := cls_of e; mo_ent := Some e |} (fun q u i => vget (matvec (entries2 e) (datavec e q u)) i).
Proof. exact lib_projects. Qed.
Print Assumptions C72_library_galerkin.

(* C72: model.state_dimension = r raises AttributeError if an operator has no attribute entries. *)
Theorem C72_set_dimension :
  forall W n d o,
  In o (om_ops d) -> w_ent W o = None -> oset_r W n d = Err AttributeError.
Proof. exact set_dimension_needs_entries. Qed.
Print Assumptions C72_set_dimension.

(* C72: it is false that copy() of a model always equals the model: not if the class of an operator does not define ==. *)
Theorem C72_copy_refuted :
  exists W k l d d', omk W k l = Ok d /\ Forall2 (behaves W 1 1) l [fun q _ i => (2 * vget q i)%R] /\ ocopy W d = Ok d' /\
  model_of W 1 1 d' [fun q _ i => (2 * vget q i)%R] /\ omodel_eqb W d' d = false.
Proof. exact copy_not_equal. Qed.
Print Assumptions C72_copy_refuted.

(* C72: it is false that the state dimension a model has can always be assigned to it again. *)
Theorem C72_set_dimension_refuted :
  exists W k l d fs n, omk W k l = Ok d /\ Forall2 (behaves W n 1) l fs /\ om_r d = Some n /\ oset_r W n d = Err AttributeError.
Proof. exact set_dimension_refuted. Qed.
Print Assumptions C72_set_dimension_refuted.


(* ---- examples ---- *)
(* two operators of a class of a user on one state, q -> 2 q and q -> 3 q; the library's c, A *)
Definition sw : world := scalar_world same_value.
Definition so2 : nat * R := (0, 2%R).
Definition so3 : nat * R := (1, 3%R).
Definition sf (a : R) : fn := fun q _ i => (a * vget q i)%R.
Lemma sw_diff a m : differentiates sw 1 m a (sf (snd a)).
Proof. intros q u ou Hq _. exists (JMat [[snd a]]). split; [reflexivity|]. split; [intros A K; injection K as <-; split; [reflexivity|repeat constructor]|].
  intros dir i Hd Hi. destruct q as [|x [|]]; try discriminate. destruct dir as [|y [|]]; try discriminate. assert (i = 0) by lia. subst i.
  cbn [bsum jget]. unfold mget, vget, sf, along. cbn. replace (0 + snd a * y)%R with (snd a * (0 + 1 * y))%R by ring.
  intros eps He. exists (mkposreal 1 Rlt_0_1). intros h Hh _. replace (_ - _)%R with 0%R by (cbn; unfold vget; cbn; field; auto). rewrite Rabs_R0. auto. Qed.
Lemma sw_proj a m : projects sw 1 1 m [[2]]%R None a (sf (snd a)).
Proof. exists (S (fst a), snd a), (sf (snd a)). split; [reflexivity|]. split; [reflexivity|]. split; [apply (scalar_behaves same_value (S (fst a), snd a) m)|].
  intros q u i Hq _ Hi. destruct q as [|x [|]]; try discriminate. assert (i = 0) by lia. subst i. cbn. unfold mget, vget, sf, vget. cbn. ring. Qed.
Example C72_objects_example : exists d, omk sw KDiscrete [so2; so3] = Ok d /\ model_of sw 1 1 d [sf 2; sf 3] /\ Forall2 (differentiates sw 1 1) (om_ops d) [sf 2; sf 3] /\
  Forall2 (projects sw 1 1 1 [[2]]%R None) (om_ops d) [sf 2; sf 3] /\ model_input d 1 [0]%R (fun v => v) None /\ oenough d 1 None 3 /\
  orhs sw d (V [7]%R) None = Ok (V [35]%R) /\ ojacobian sw d [7]%R None = Ok [[5]]%R /\ opredict sw d (V [7]%R) 3 None = Ok [[7; 35; 175]]%R /\ opredict sw d (V [7]%R) 0 None = Err ValueError.
Proof. eexists. split; [reflexivity|]. assert (HB : forall a, behaves sw 1 1 a (sf (snd a))) by (intros a; apply (scalar_behaves same_value a 1)).
  split. { exists KDiscrete, [so2; so3]. split; [reflexivity|]. constructor; [apply (HB so2)|]. constructor; [apply (HB so3)|constructor]. }
  split. { constructor; [apply (sw_diff so2)|]. constructor; [apply (sw_diff so3)|constructor]. }
  split. { constructor; [apply (sw_proj so2)|]. constructor; [apply (sw_proj so3)|constructor]. }
  split. { split; [reflexivity|discriminate]. } split; [discriminate|].
  split. { cbn. do 3 f_equal. ring. } split. { cbn. unfold madd, mzeros. cbn. do 3 f_equal. ring. }
  split; [|reflexivity]. unfold opredict. change (Z.to_nat 3) with 3. cbn. repeat match goal with |- Ok _ = Ok _ => apply f_equal | |- (_ :: _) = (_ :: _) => apply (f_equal2 cons) | |- _ => first [reflexivity | ring] end. Qed.
Lemma sw_equivalence : equivalence_eq sw.
Proof. unfold equivalence_eq, sw. cbn. unfold same_value. split; [|split].
  - intros a. destruct (Req_EM_T (snd a) (snd a)); congruence.
  - intros a b. destruct (Req_EM_T (snd a) (snd b)), (Req_EM_T (snd b) (snd a)); congruence.
  - intros a b c. destruct (Req_EM_T (snd a) (snd b)), (Req_EM_T (snd b) (snd c)), (Req_EM_T (snd a) (snd c)); congruence. Qed.
(* the order does not matter to ==, how often an operator occurs does *)
Example C72_eq_example : equivalence_eq sw /\ (exists a b c, omk sw KDiscrete [so2; so3] = Ok a /\ omk sw KDiscrete [so3; so2] = Ok b /\ omk sw KDiscrete [so2; so2] = Ok c /\
  omodel_eqb sw a b = true /\ omodel_eqb sw a c = false) /\ faithful_copy sw so2.
Proof. split; [exact sw_equivalence|]. split.
  - do 3 eexists. split; [reflexivity|]. split; [reflexivity|]. split; [reflexivity|]. split.
    + cbn. unfold same_value. cbn. destruct (Req_EM_T 2 3); [lra|]. destruct (Req_EM_T 2 2); [|lra]. cbn. destruct (Req_EM_T 3 3); [|lra]. reflexivity.
    + cbn. unfold same_value. cbn. destruct (Req_EM_T 2 2); [|lra]. cbn. destruct (Req_EM_T 3 2); [lra|]. reflexivity.
  - exists (1, 2%R). cbn. unfold same_value. cbn. destruct (Req_EM_T 2 2); [|lra]. repeat (split; [reflexivity|]). reflexivity. Qed.
(* a failing operator: an input operator of the library that gets no input; two dimensions in one model; no operators *)
Example C72_raises_example : exists d, omk (lib_world (fun _ _ => Err ValueError) (fun k => repeat 0%R k)) KDiscrete [knw (OConst [1]%R); knw (OInp [[2]]%R)] = Ok d /\ om_hasin d = true /\ om_m d = Some 1 /\
  orhs _ d (V [7]%R) (Some (V [3]%R)) = Ok (V [7]%R) /\ (exists e, w_apply (lib_world (fun _ _ => Err ValueError) (fun k => repeat 0%R k)) (knw (OInp [[2]]%R)) (V [7]%R) None = Err e /\ orhs _ d (V [7]%R) None = Err e) /\
  ocont_rhs _ d 0%R (V [7]%R) None = Err TypeError /\
  omk (lib_world (fun _ _ => Err ValueError) (fun k => repeat 0%R k)) KDiscrete [knw (OConst [1]%R); knw (OConst [1; 2]%R)] = Err DimensionalityError /\ omk sw KDiscrete [] = Err ValueError.
Proof. eexists. split; [reflexivity|]. split; [reflexivity|]. split; [reflexivity|]. split. { cbn. do 3 f_equal. ring. } split. { eexists. split; reflexivity. } split; [reflexivity|]. split; reflexivity. Qed.

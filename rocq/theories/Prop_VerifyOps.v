(* Prop_VerifyOps.v -- property C67 (verify() of operators). *)
From Coq Require Import String ZArith Reals Lra Lia List.
From Verif Require Import MatAlg LinAlg OpsProofs JacProofs GalProofs AffProofs SaveFile SolveEx VerifyOpProofs VerifyOpLib VerifyOpFd VerifyOpMore VerifyOpRest SpecParam.
From Verif Require Import SpecVerifyOp.
#[local] Open Scope nat_scope.

(* C67: verify() of a well-formed operator of the library returns or raises VerificationError, leaves no file behind, and returns exactly if the difference quotients confirm the Jacobian at the drawn point. *)
Theorem C67_library_verdict :
  forall solve junk I lusolve D k ntests r m o e,
  solve_spec solve -> solve_total solve -> (forall n, length (junk n) = n) -> lu_spec lusolve ->
  drawn D -> 0 < k -> 0 < r -> 0 < m -> mo_ent o = Some e -> cls_of e = mo_cls o -> wf_op r m e -> size_ok r e -> (1 < r -> general_position D r) ->
  forall rt mt f, 0 < rt -> 0 < mt -> f tempfile = None ->
  exists f', same_files f f' /\
  (op_verify solve junk I calm lusolve D k ntests rt mt o f = (f', Done) \/ op_verify solve junk I calm lusolve D k ntests rt mt o f = (f', Raised VerificationError)) /\
  (op_verify solve junk I calm lusolve D k ntests rt mt o f = (f', Done) <-> jacobian_confirmed junk D o r (test_input D (mo_cls o) m k)).
Proof. exact library_verdict. Qed.
Print Assumptions C67_library_verdict.

(* C67: it returns for every constant, linear, input and state-input operator, whatever is drawn. *)
Theorem C67_linear_accepted :
  forall solve junk I lusolve D k ntests r m o e,
  solve_spec solve -> solve_total solve -> (forall n, length (junk n) = n) -> lu_spec lusolve ->
  drawn D -> 0 < k -> 0 < r -> 0 < m -> mo_ent o = Some e -> cls_of e = mo_cls o -> wf_op r m e -> (forall d, mo_cls o <> CPoly d) -> (1 < r -> general_position D r) ->
  forall rt mt f, 0 < rt -> 0 < mt -> f tempfile = None -> exists f', op_verify solve junk I calm lusolve D k ntests rt mt o f = (f', Done) /\ same_files f f'.
Proof. exact linear_accepted. Qed.
Print Assumptions C67_linear_accepted.

(* C67, refuted for polynomial operators: verify() of the correct operator q -> c q^2 raises VerificationError if the drawn point is nearer to zero than 5e-6, and returns otherwise. *)
Theorem C67_scalar_quadratic_refuted :
  forall solve junk I lusolve D k ntests c x,
  solve_spec solve -> solve_total solve -> (forall n, length (junk n) = n) -> lu_spec lusolve -> drawn D -> 0 < k ->
  c <> 0%R -> dr_x D 1 = [x] -> forall rt mt f, 0 < rt -> 0 < mt -> f tempfile = None ->
  exists f', same_files f f' /\ op_verify solve junk I calm lusolve D k ntests rt mt {| mo_cls := CPoly Quadratic; mo_ent := Some (OPoly Quadratic [[c]]) |} f =
  (f', if Rle_dec (5 / 10 ^ 6) (Rabs x) then Done else Raised VerificationError).
Proof. exact scalar_verdict. Qed.
Print Assumptions C67_scalar_quadratic_refuted.

(* C67: but the quotients come within every tolerance of a Jacobian that is not zero as the step gets small. *)
Theorem C67_quotients_converge :
  forall junk r m o e u x J tol,
  (forall n, length (junk n) = n) -> 0 < r -> 0 < m -> mo_ent o = Some e -> cls_of e = mo_cls o -> wf_op r m e -> size_ok r e ->
  is_vec m u -> is_vec r x -> let ui := if has_inputs (mo_cls o) then Some u else None in
  op_jacobian junk o x ui = Ok (JMat J) -> (0 < norm r r J)%R -> (0 < tol)%R ->
  forall f, (forall q, is_vec r q -> op_apply o (V q) (option_map V ui) = Ok (V (f q))) ->
  exists h0, (0 < h0)%R /\ forall h, (0 < Rabs h < h0)%R -> (distance r r (quotients r f x h) J <= tol * norm r r J)%R.
Proof. exact quotients_converge. Qed.
Print Assumptions C67_quotients_converge.

(* C67: without entries only operator_dimension and datablock are checked; verify() returns. *)
Theorem C67_untrained :
  forall solve junk I w lusolve D k ntests o r m f,
  drawn D -> 0 < k -> 0 < r -> 0 < m -> mo_ent o = None ->
  op_verify solve junk I w lusolve D k ntests r m o f = (f, Done).
Proof. exact untrained_done. Qed.
Print Assumptions C67_untrained.

(* C67, refuted for PolynomialOperator: verify() raises VerificationError always, its operator_dimension and datablock not being static methods. *)
Theorem C67_polynomial_operator_refuted :
  forall lusolve D k ntests r m t o f,
  v_opinf lusolve D k ntests r m polynomial_class t o f = (f, Raised VerificationError).
Proof. exact polynomial_never. Qed.
Print Assumptions C67_polynomial_operator_refuted.

(* C67: if verify() of any operator returns, apply() has the right shapes, and jacobian(), galerkin(), copy(), save() and load() are right at the drawn arrays. *)
Theorem C67_accepted_is_checked :
  forall lusolve D k ntests tol o f f',
  (0 <= tol)%R -> v_operator lusolve D k ntests tol o f = (f', Done) ->
  exists r m, checked lusolve D k ntests tol o f r m.
Proof. exact accepted_checked. Qed.
Print Assumptions C67_accepted_is_checked.

(* C67: and its class has a static positive operator_dimension and a static datablock of matching shape. *)
Theorem C67_accepted_class :
  forall lusolve D k ntests r m c t o f f',
  v_opinf lusolve D k ntests r m c t o f = (f', Done) ->
  exists dim data n B, k_dim c = Some dim /\ k_data c = Some data /\ dim r m = Some n /\ 0 < n /\ data (dr_Q D r k) (dr_U D m k) = Ok (Some B) /\ nrows B = n /\ ncols B = k.
Proof. exact class_accepted. Qed.
Print Assumptions C67_accepted_class.

(* C67: verify() changes no other file and, unless the process is killed, does not leave its temporary file. *)
Theorem C67_files :
  forall lusolve D k ntests tol o f f' s,
  (forall sv, vp_save o = Some sv -> writes_only sv) -> v_operator lusolve D k ntests tol o f = (f', s) ->
  (forall p, p <> tempfile -> f' p = f p) /\ (s <> Killed -> f' tempfile = f tempfile \/ ~ is_file f' tempfile).
Proof. exact files_kept. Qed.
Print Assumptions C67_files.

(* C67, refuted: a file of that name is the users own; verify() of a correct operator raises FileExistsError and deletes the file. *)
Theorem C67_user_file_refuted :
  forall solve junk I lusolve D k ntests r m o e,
  solve_spec solve -> solve_total solve -> (forall n, length (junk n) = n) -> lu_spec lusolve ->
  drawn D -> 0 < k -> 0 < r -> 0 < m -> mo_ent o = Some e -> cls_of e = mo_cls o -> wf_op r m e -> size_ok r e -> (1 < r -> general_position D r) ->
  jacobian_confirmed junk D o r (test_input D (mo_cls o) m k) ->
  forall rt mt f, 0 < rt -> 0 < mt -> is_file f tempfile ->
  exists f', op_verify solve junk I calm lusolve D k ntests rt mt o f = (f', Raised FileExistsError) /\ f' tempfile = None /\ forall p, p <> tempfile -> f' p = f p.
Proof. exact user_file_lost. Qed.
Print Assumptions C67_user_file_refuted.

(* C67: if verify() of a parametric operator returns, evaluate() gave an operator of the right class, without parameters and of the right sizes. *)
Theorem C67_parametric_accepted :
  forall W draw draw1 t,
  v_param W draw draw1 t = Ok tt ->
  exists r p v e, w_base W = true /\ w_r W = Some r /\ 0 < r /\ w_p W = Some p /\ test_param draw draw1 (Some p) t = PV v /\ length v = p /\ w_eval W (PV v) = Ok e /\
  e_inst e = true /\ e_nonpar e = true /\ e_r e = Some r /\ e_hasin e = w_hasin W /\ (w_hasin W = true -> exists m, 0 < m /\ w_m W = Some m /\ e_m e = Some m).
Proof. exact param_accepted. Qed.
Print Assumptions C67_parametric_accepted.

(* C67: verify() returns for every affine operator whose parameter dimension is known. *)
Theorem C67_affine_accepted :
  forall r m a ops p draw draw1 t th,
  0 < r -> 0 < m -> affine_of r m a ops -> a_pdim a = Some p -> length (draw p) = p ->
  (forall s, t = Some s -> exists v, s = PV v /\ length v = p) ->
  thetas a (match t with Some s => s | None => PV (draw p) end) = Ok th -> length th = a_nterms a -> v_param (aff_w a) draw draw1 t = Ok tt.
Proof. exact affine_accepted. Qed.
Print Assumptions C67_affine_accepted.

(* C67, refuted: it raises ValueError for every affine operator whose parameter dimension is not yet known, whatever test parameter is passed. *)
Theorem C67_affine_first_refuted :
  forall r m a ops draw draw1 t,
  0 < r -> 0 < m -> affine_of r m a ops -> a_pdim a = None -> v_param (aff_w a) draw draw1 t = Err ValueError.
Proof. exact affine_unset. Qed.
Print Assumptions C67_affine_first_refuted.

(* C67: one evaluate() makes the difference. *)
Theorem C67_affine_then_evaluate :
  forall r m a ops mu p draw draw1 th th',
  0 < r -> 0 < m -> affine_of r m a ops -> a_pdim a = None -> plen mu = p -> length (draw p) = p ->
  thetas a mu = Ok th -> thetas a (PV (draw p)) = Ok th' -> length th' = a_nterms a ->
  v_param (aff_w a) draw draw1 None = Err ValueError /\ v_param (aff_w (fst (aff_evaluate a mu))) draw draw1 None = Ok tt.
Proof. exact affine_then. Qed.
Print Assumptions C67_affine_then_evaluate.

(* C67: verify() returns for every interpolated operator whose interpolator gives entries of the right shape. *)
Theorem C67_interpolated_accepted :
  forall r m i ops F p draw draw1 t v E,
  0 < r -> 0 < m -> i_entries i = Some ops -> SpecParam.family r m (i_cls i) ops -> 0 < length ops -> i_pdim i = Some p ->
  i_interp i = Some F -> (match t with Some s => s | None => PV (draw p) end) = PV v -> length v = p ->
  F (if p =? 1 then PS (vget v 0) else PV v) = Ok E -> is_mat r (opdim (proto (i_cls i)) r m) E -> v_param (itp_w i) draw draw1 t = Ok tt.
Proof. exact interp_accepted. Qed.
Print Assumptions C67_interpolated_accepted.

(* C67: verify() of a parametric operator without entries raises VerificationError. *)
Theorem C67_parametric_untrained :
  forall draw draw1 t,
  (forall a, a_entries a = None -> v_param (aff_w a) draw draw1 t = Err VerificationError) /\
  (forall i, i_entries i = None -> v_param (itp_w i) draw draw1 t = Err VerificationError).
Proof. exact untrained_param. Qed.
Print Assumptions C67_parametric_untrained.

(* ---- the hypotheses can be met ---- *)
Definition ones (r k : nat) : mat := map (fun _ => map (fun _ => 1%R) (seq 0 k)) (seq 0 r).
Definition slim (a : R) (n r : nat) : mat := map (fun i => map (fun j => if i =? j then a else 0%R) (seq 0 r)) (seq 0 n).
Definition D67 : draws :=
  {| dr_Q := ones; dr_U := ones; dr_x := repeat 1%R; dr_V := slim 1; dr_W := slim 2; dr_q := fun _ i r => repeat (INR i) r |}.
Definition junk67 (n : nat) : vec := repeat 0%R n.
Lemma junk67_ok n : length (junk67 n) = n. Proof. apply repeat_length. Qed.
Lemma slim_prod a n r : r <= n -> matmul (mT (slim a n r)) (slim 1 n r) = slim a r r.
Proof.
  intros Hle. destruct (Nat.eq_dec r 0) as [->|]. { destruct n; reflexivity. } apply (mat_ext r r).
  - apply (is_mat_matmul r n r); [apply is_mat_mT; [apply is_mat_tab|lia]|apply is_mat_tab|lia].
  - apply is_mat_tab.
  - intros i j Hi Hj. rewrite (mget_matmul r n r) by solve [lia|apply is_mat_tab|apply is_mat_mT; [apply is_mat_tab|lia]]. unfold slim at 3. rewrite mget_tab by auto.
    rewrite (bsum_ext n _ (fun k => (if k =? i then a else 0) * (if k =? j then 1 else 0)))%R. 2:{ intros k Hk. rewrite (mget_mT n r) by solve [lia|apply is_mat_tab]. unfold slim. rewrite !mget_tab by auto. reflexivity. }
    rewrite (bsum_ext n _ (fun k => dlt k i * (a * (if k =? j then 1 else 0))))%R. 2:{ intros k Hk. unfold dlt. destruct (k =? i); ring. }
    rewrite bsum_dlt by lia. destruct (i =? j); ring.
Qed.
Example C67_example_draws : drawn D67.
Proof.
  split; [intros; apply is_mat_tab|]. split; [intros; apply is_mat_tab|]. split; [intros; apply repeat_length|]. split; [|split; [intros; apply is_mat_tab|intros; apply repeat_length]].
  intros n r Hle. split; [apply is_mat_tab|]. exact (slim_prod 1 n r Hle).
Qed.
Example C67_example_position : forall n, 1 < n -> general_position D67 n.
Proof.
  intros n Hn. unfold general_position. cbn [D67 dr_W dr_V]. assert (Hle : n / 2 <= n) by (apply Nat.div_le_upper_bound; lia). assert (Hp : 0 < n / 2) by (apply Nat.div_str_pos; lia).
  rewrite slim_prod by auto. set (r := n / 2) in *. split.
  - right. destruct (allclose (slim 2 r r) (eye r)) eqn:E; auto. exfalso.
    rewrite EqBasis.allclose_true in E. assert (Hm : is_mat r r (slim 2 r r)) by apply is_mat_tab. specialize (E 0 0 ltac:(rewrite (is_mat_nrows _ _ _ Hm); auto) ltac:(rewrite (ncols_is_mat r r _ Hm Hp); auto)). unfold SpecEq.close, slim in E. rewrite mget_tab in E by auto. rewrite mget_eye in E by auto. cbn [Nat.eqb] in E.
    replace (2 - 1)%R with 1%R in E by lra. rewrite Rabs_R1 in E. assert (10 ^ 8 = 100000000)%R by ring. assert (10 ^ 5 = 100000)%R by ring. rewrite H, H0 in E. lra.
  - exists (slim (/ 2) r r). split; [apply is_mat_tab|]. apply (mat_ext r r); [apply (is_mat_matmul r r r); solve [apply is_mat_tab|auto]|apply is_mat_eye|].
    intros i j Hi Hj. rewrite (mget_matmul r r r) by solve [apply is_mat_tab|auto]. rewrite mget_eye by auto. unfold slim.
    rewrite (bsum_ext r _ (fun k => dlt i k * (/ 2 * (if k =? j then 2 else 0))))%R. 2:{ intros k Hk. rewrite !mget_tab by auto. unfold dlt. destruct (i =? k); ring. }
    rewrite bsum_dlt' by auto. destruct (i =? j); lra.
Qed.
Definition lin67 : mop := {| mo_cls := CStIn; mo_ent := Some (OStIn [[1; 2]; [3; 4]]%R) |}.
Example C67_example_accepted : forall I k ntests, 0 < k -> exists f', op_verify solveE junk67 I calm lusolveE D67 k ntests 3 2 lin67 (fun _ => None) = (f', Done) /\ same_files (fun _ => None) f'.
Proof.
  intros I k ntests Hk. apply (linear_accepted solveE junk67 I lusolveE D67 k ntests 2 1 lin67 (OStIn [[1; 2]; [3; 4]]%R)); try lia; auto.
  - exact solveE_spec.
  - exact solveE_total.
  - exact junk67_ok.
  - exact lusolveE_ok.
  - exact C67_example_draws.
  - repeat constructor.
  - intros d; discriminate.
  - apply C67_example_position.
Qed.
(* the drawn point decides: 1 is accepted, 1e-6 is not *)
Definition tiny : draws := {| dr_Q := ones; dr_U := ones; dr_x := repeat (/ 10 ^ 6)%R; dr_V := slim 1; dr_W := slim 2; dr_q := fun _ i r => repeat (INR i) r |}.
Definition sq3 : mop := {| mo_cls := CPoly Quadratic; mo_ent := Some (OPoly Quadratic [[3%R]]) |}.
Example C67_example_quadratic : forall I, exists f' g', op_verify solveE junk67 I calm lusolveE D67 10 5 3 2 sq3 (fun _ => None) = (f', Done) /\
  op_verify solveE junk67 I calm lusolveE tiny 10 5 3 2 sq3 (fun _ => None) = (g', Raised VerificationError).
Proof.
  intros I. assert (Ht : drawn tiny) by (destruct C67_example_draws as (? & ? & _ & ?); split; [|split; [|split]]; auto; intros; apply repeat_length).
  destruct (scalar_verdict solveE junk67 I lusolveE D67 10 5 3 1 solveE_spec solveE_total junk67_ok lusolveE_ok C67_example_draws ltac:(lia) ltac:(lra) eq_refl 3 2 (fun _ => None)) as (f' & _ & E); try lia; auto.
  destruct (scalar_verdict solveE junk67 I lusolveE tiny 10 5 3 (/ 10 ^ 6) solveE_spec solveE_total junk67_ok lusolveE_ok Ht ltac:(lia) ltac:(lra) eq_refl 3 2 (fun _ => None)) as (g' & _ & E'); try lia; auto.
  exists f', g'. assert (P6 : (10 ^ 6 = 1000000)%R) by ring. fold sq3 in E, E'.
  assert (Q1 : (5 / 10 ^ 6 <= Rabs 1)%R) by (rewrite Rabs_R1, P6; lra). assert (Q2 : ~ (5 / 10 ^ 6 <= Rabs (/ 10 ^ 6))%R) by (rewrite Rabs_pos_eq by (rewrite P6; lra); rewrite P6; lra).
  destruct (Rle_dec (5 / 10 ^ 6) (Rabs 1)); [|contradiction]. destruct (Rle_dec (5 / 10 ^ 6) (Rabs (/ 10 ^ 6))); [contradiction|]. split; assumption.
Qed.
(* a class of a user whose copy() returns the object itself, and one that loads something else *)
Example C67_example_self : forall lusolve D k ntests tol o f f', (0 <= tol)%R -> vp_copy o = Ok (true, vp_self o) -> v_operator lusolve D k ntests tol o f <> (f', Done).
Proof.
  intros lusolve D k ntests tol o f f' Ht Hc H. apply accepted_checked in H; auto. destruct H as (r & m & _ & _ & _ & _ & _ & _ & _ & (c & E & _) & _). rewrite Hc in E. discriminate.
Qed.
Example C67_example_checked : forall I, exists f', v_operator lusolveE D67 4 2 (/ 10 ^ 5)%R (lib_op solveE junk67 I calm lin67) (fun _ => None) = (f', Done).
Proof.
  intros I. destruct (C67_example_accepted I 4 2 ltac:(lia)) as (f' & E & _). exists f'. unfold op_verify, v_opinf in E. destruct (v_static _ _ _ _ _); [exact E|discriminate].
Qed.
Example C67_example_writes : forall I w o sv, vp_save (lib_op solveE junk67 I w o) = Some sv -> writes_only sv.
Proof. intros I w o sv [= <-] f p q N. apply (save_other I w f p None (SvOp o) q N). Qed.
(* the user's own file *)
Definition own67 : fs := fun p => if String.eqb p tempfile then Some (File None) else None.
Example C67_example_own : forall I, is_file own67 tempfile /\ exists f', op_verify solveE junk67 I calm lusolveE D67 10 5 3 2 lin67 own67 = (f', Raised FileExistsError) /\ f' tempfile = None.
Proof.
  intros I. assert (F : is_file own67 tempfile) by (exists None; reflexivity). split; auto.
  assert (W : wf_op 2 1 (OStIn [[1; 2]; [3; 4]]%R)) by (repeat constructor). assert (G : size_ok 2 (OStIn [[1; 2]; [3; 4]]%R)) by (intros d H; discriminate).
  destruct (user_file_lost solveE junk67 I lusolveE D67 10 5 2 1 lin67 (OStIn [[1; 2]; [3; 4]]%R) solveE_spec solveE_total junk67_ok lusolveE_ok C67_example_draws ltac:(lia) ltac:(lia) ltac:(lia) eq_refl eq_refl W G) with (rt := 3) (mt := 2) (f := own67) as (f' & E & E' & _); try lia; auto.
  - apply C67_example_position.
  - apply linear_confirmed with (e := OStIn [[1; 2]; [3; 4]]%R); auto; try lia; [exact junk67_ok|exact C67_example_draws|intros d; discriminate].
  - eauto.
Qed.
(* parametric operators *)
Definition aff67 (p : option nat) : aff := {| a_cls := CLin; a_theta := identity; a_nterms := 2; a_pdim := p; a_entries := Some [OLin [[1%R]]; OLin [[3%R]]] |}.
Example C67_example_affine : affine_of 1 1 (aff67 None) [OLin [[1%R]]; OLin [[3%R]]] /\ v_param (aff_w (aff67 None)) (repeat 1%R) 1 None = Err ValueError /\
  v_param (aff_w (aff67 (Some 2))) (repeat 1%R) 1 None = Ok tt /\ v_param (aff_w (aff67 (Some 2))) (repeat 1%R) 1 (Some (PV [5; 7]%R)) = Ok tt.
Proof.
  assert (A : forall p, affine_of 1 1 (aff67 p) [OLin [[1%R]]; OLin [[3%R]]]) by (intros p; split; [reflexivity|]; split; [|cbn; split; lia]; repeat constructor).
  split; [apply A|]. split; [apply (affine_unset 1 1 _ _ _ _ _ ltac:(lia) ltac:(lia) (A None) eq_refl)|]. split.
  - apply (affine_accepted 1 1 (aff67 (Some 2)) _ 2 (repeat 1%R) 1 None [1; 1]%R ltac:(lia) ltac:(lia) (A (Some 2))); auto. discriminate.
  - apply (affine_accepted 1 1 (aff67 (Some 2)) _ 2 (repeat 1%R) 1 (Some (PV [5; 7]%R)) [5; 7]%R ltac:(lia) ltac:(lia) (A (Some 2))); auto. intros s [= <-]. eauto.
Qed.
Example C67_example_interpolated : v_param (itp_w {| i_cls := CLin; i_pdim := Some 1; i_params := Some [PS 0; PS 1]%R; i_entries := Some [OLin [[1%R]]; OLin [[3%R]]];
  i_interp := Some (fun mu => match mu with PS x => Ok [[(1 + 2 * x)%R]] | PV _ => Err ValueError end); i_iclass := None |}) (repeat 1%R) 1 None = Ok tt.
Proof.
  eapply (interp_accepted 1 1 _ [OLin [[1%R]]; OLin [[3%R]]] _ 1 (repeat 1%R) 1 None [1%R]); try reflexivity; try lia; try (cbn; lia); repeat constructor.
Qed.

(* Prop_Rom.v -- properties C51 and C52: reduced-order models. *)
From Coq Require Import ZArith Lra Lia List.
From Verif Require Import MonoEx PreFinal RomParts RomProofs RomLift RomFit RomRun RomEx RomCut SpecRom.
#[local] Open Scope nat_scope.

(* C51: encode(states) lifts, then transforms, then compresses; a missing part is skipped. *)
Theorem C51_encode_order :
  forall P a q,
  encode1 P a = Ok q <-> exists l t, via (rp_lift P) lf_lift a l /\ via (rp_tf P) transform l t /\ via (rp_basis P) rb_compress t q.
Proof. exact encode1_iff. Qed.
Print Assumptions C51_encode_order.

(* C51: for a model that is not time-continuous, encode(states, lhs) encodes the left-hand side like a state. *)
Theorem C51_encode_discrete :
  forall P a d q z,
  encode P false a (Some d) = Ok (q, z) <-> exists z', z = Some z' /\ encode1 P a = Ok q /\ encode1 P d = Ok z'.
Proof. exact encode_discrete. Qed.
Print Assumptions C51_encode_discrete.

(* C51: for a time-continuous model, encode(states, lhs) sends the left-hand side through lift_ddts, transform_ddts and compress. *)
Theorem C51_encode_continuous :
  forall P a d q z,
  encode P true a (Some d) = Ok (q, z) <-> exists z' dl dt, z = Some z' /\ encode1 P a = Ok q /\
  via (rp_lift P) (fun f => lf_ddts f a) d dl /\ via (rp_tf P) transform_ddts dl dt /\ via (rp_basis P) rb_compress dt z'.
Proof. exact encode_continuous. Qed.
Print Assumptions C51_encode_continuous.

(* C51: decode(states, locs) decompresses, inverts the transformer and unlifts, in this order. *)
Theorem C51_decode_order :
  forall P q locs x,
  decode P q locs = Ok x <-> exists t l, via (rp_basis P) (fun b y => rb_decompress b y locs) q t /\
  via (rp_tf P) (fun t z => inverse_transform t locs z) t l /\ via (rp_lift P) lf_unlift l x.
Proof. exact decode_iff. Qed.
Print Assumptions C51_decode_order.

(* C51: encode(..., fit_transformer, fit_basis) returns what encode gives with the fitted parts; the transformer is fitted on the lifted states, the basis on the transformed ones. *)
Theorem C51_encode_fitting :
  forall P cont ft fb a lhs P' q z,
  match rp_tf P with Some t => ft = true -> built t | None => True end ->
  encode_fit P cont ft fb a lhs = Ok (P', q, z) ->
  encode P' cont a lhs = Ok (q, z) /\ rp_lift P' = rp_lift P /\ exists l t, via (rp_lift P) lf_lift a l /\ via (rp_tf P') transform l t /\
    match rp_tf P, rp_tf P' with
    | None, None => True
    | Some s, Some s' => if ft then fit_transform s l = Ok (s', t) else s' = s
    | _, _ => False
    end /\
    match rp_basis P, rp_basis P' with
    | None, None => True
    | Some b, Some b' => match fb with Some X => rb_fit X b t = Ok b' | None => b' = b end
    | _, _ => False
    end.
Proof. exact encode_fits. Qed.
Print Assumptions C51_encode_fitting.

(* C51: encoding acts on each snapshot separately. *)
Theorem C51_encode_by_columns :
  forall n0 n r P,
  trained_parts n r P -> columnwise_lifter n0 n (rp_lift P) -> columnwise n0 r (encode1 P).
Proof. exact encode_columns. Qed.
Print Assumptions C51_encode_by_columns.

(* C51: decoding acts on each snapshot separately. *)
Theorem C51_decode_by_columns :
  forall n0 n r P,
  trained_parts n r P -> columnwise_lifter n0 n (rp_lift P) -> columnwise r n0 (fun q => decode P q None).
Proof. exact decode_columns. Qed.
Print Assumptions C51_decode_by_columns.

(* C51: decode(encode(Q)) is the state y whose transform is the projection s of the transformed, lifted state t onto the basis (then unlifted). *)
Theorem C51_projection :
  forall n r k P a l,
  trained_parts n r P -> via (rp_lift P) lf_lift a l -> shaped n k l ->
  exists t q s y, via (rp_tf P) transform l t /\ via (rp_basis P) rb_compress t q /\ via (rp_basis P) (fun b y => rb_decompress b y None) q s /\ via (rp_tf P) transform y s /\
    shaped n k t /\ shaped r k q /\ shaped n k s /\ shaped n k y /\ same_kind l y /\ encode1 P a = Ok q /\ rom_project P a = opt_call (rp_lift P) lf_unlift y.
Proof. exact project_transformed. Qed.
Print Assumptions C51_projection.

(* C51: if the transformed state lies in the range of the basis, decode(encode(Q)) = Q. *)
Theorem C51_exact_in_range :
  forall n r k P a l t,
  trained_parts n r P -> lifts P a l -> shaped n k l -> via (rp_tf P) transform l t -> in_range (rp_basis P) r k t -> rom_project P a = Ok a.
Proof. exact project_exact. Qed.
Print Assumptions C51_exact_in_range.

(* C51: encode(decode(q)) = q (without a lifter). *)
Theorem C51_decode_then_encode :
  forall n r k P q,
  trained_parts n r P -> rp_lift P = None -> shaped r k q -> exists x, decode P q None = Ok x /\ shaped n k x /\ same_kind q x /\ encode1 P x = Ok q.
Proof. exact decode_encode. Qed.
Print Assumptions C51_decode_then_encode.

(* C51: projecting twice is projecting once (without a lifter). *)
Theorem C51_project_idempotent :
  forall n r k P a x,
  trained_parts n r P -> rp_lift P = None -> shaped n k a -> rom_project P a = Ok x -> shaped n k x /\ rom_project P x = Ok x.
Proof. exact project_idempotent. Qed.
Print Assumptions C51_project_idempotent.

(* C51: decode(q, locs) is the selected rows of decode(q). *)
Theorem C51_locations :
  forall n r k P q locs idx W A b,
  trained_parts n r P -> rp_lift P = None -> match rp_tf P with Some t => flat t | None => True end ->
  rp_basis P = Some (BOne b) -> basis_of n r W A b -> shaped r k q -> selects n locs idx ->
  exists x, decode P q None = Ok x /\ alen x = n /\ decode P q (Some locs) = Ok (asel idx x).
Proof. exact decode_locs. Qed.
Print Assumptions C51_locations.

(* C51: encode(states, lhs) of a time-continuous model: if lhs is the derivative of the states, the encoded lhs is the derivative of the encoded states. *)
Theorem C51_derivatives :
  forall n0 n r k P a d e,
  trained_parts n r P -> shaped n0 k a -> shaped n0 k d -> same_kind a d ->
  match rp_lift P with
  | None => n = n0 /\ e = d
  | Some f => lf_ddts f a d = Ok e /\ derivative_along (lf_lift f) a d n k e
  end ->
  exists q z, encode P true a (Some d) = Ok (q, Some z) /\ encode1 P a = Ok q /\ derivative_along (encode1 P) a d r k z.
Proof. exact encode_derivative. Qed.
Print Assumptions C51_derivatives.

(* C51: lift_ddts of a PolynomialLifter with positive orders is the derivative of lift, as C51_derivatives asks of a lifter. *)
Theorem C51_polynomial_lifter :
  forall n k ns a d,
  ns <> [] -> Forall (lt 0) ns -> shaped n k a -> shaped n k d -> same_kind a d ->
  exists e, lf_ddts (poly_lifter (map INR ns)) a d = Ok e /\ derivative_along (lf_lift (poly_lifter (map INR ns))) a d (length ns * n) k e.
Proof. exact poly_derivative. Qed.
Print Assumptions C51_polynomial_lifter.

(* C51: the same for the QuadraticLifter. *)
Theorem C51_quadratic_lifter :
  forall n k a d,
  shaped n k a -> shaped n k d -> same_kind a d ->
  exists e, lf_ddts quad_lifter a d = Ok e /\ derivative_along (lf_lift quad_lifter) a d (2 * n) k e.
Proof. exact quad_derivative. Qed.
Print Assumptions C51_quadratic_lifter.

(* C51: a PolynomialLifter with order 1 unlifts what it lifted, as C51_exact_in_range asks of a lifter. *)
Theorem C51_polynomial_lifter_unlifts :
  forall n k ns a,
  In 1 ns -> shaped n k a -> exists L, lf_lift (poly_lifter (map INR ns)) a = Ok L /\ shaped (length ns * n) k L /\ lf_unlift (poly_lifter (map INR ns)) L = Ok a.
Proof. exact poly_lifts. Qed.
Print Assumptions C51_polynomial_lifter_unlifts.

(* C51: the same for the QuadraticLifter. *)
Theorem C51_quadratic_lifter_unlifts :
  forall n k a,
  shaped n k a -> exists L, lf_lift quad_lifter a = Ok L /\ shaped (2 * n) k L /\ lf_unlift quad_lifter L = Ok a.
Proof. exact quad_lifts. Qed.
Print Assumptions C51_quadratic_lifter_unlifts.

(* C52: if fit succeeds, the transformer and basis were fitted on all trajectories side by side, and the model was fitted on the contributions of the trajectories side by side, in their order: encoded states, left-hand side and inputs. *)
Theorem C52_fit :
  forall LX r T ft fb r' Qs Zs Us,
  trajectories_of T Qs Zs Us -> same_length Qs Zs -> same_length Qs Us -> rom_fit LX r T ft fb = (r', Ok tt) ->
  exists es ds us Q L U, fitted_on ft fb Qs (rm_parts r) (rm_parts r') /\ contributions (rm_parts r') (rm_ddt r) (rm_cont r) Qs Zs Us es ds us /\
    hstack_arr es = Ok Q /\ hstack_arr ds = Ok L /\ hstack_opt us = Ok U /\ model_fit LX (rm_model r) Q L U = (rm_model r', Ok tt) /\ rm_ddt r' = rm_ddt r.
Proof. exact rom_fit_ok. Qed.
Print Assumptions C52_fit.

(* C52: time-discrete model, no lhs: column pairs_before t + j of the states and of the next states the model is fitted on are the encoded snapshots j and j+1 of trajectory t, and the same column of the inputs is input j of trajectory t. *)
Theorem C52_fit_discrete :
  forall LX r T ft fb r' Qs Us n0 n p ks,
  rm_cont r = false -> trajectories_of T (map M Qs) None Us -> same_length (map M Qs) Us ->
  rom_fit LX r T ft fb = (r', Ok tt) -> trajectories n0 ks Qs -> 0 < n0 -> 0 < p -> trained_parts n p (rm_parts r') -> columnwise_lifter n0 n (rp_lift (rm_parts r')) ->
  exists A N U, model_fit LX (rm_model r) (M A) (M N) U = (rm_model r', Ok tt) /\
    is_mat p (pairs_before (length ks) ks) A /\ is_mat p (pairs_before (length ks) ks) N /\
    (forall t j, t < length Qs -> j + 1 < nth t ks 0 ->
       encode1 (rm_parts r') (V (colv n0 (nth t Qs []) j)) = Ok (V (colv p A (pairs_before t ks + j))) /\
       encode1 (rm_parts r') (V (colv n0 (nth t Qs []) (j + 1))) = Ok (V (colv p N (pairs_before t ks + j)))) /\
    (Us = None -> U = None) /\
    (forall us m, Us = Some us -> usable_inputs m ks us -> exists u, U = Some u /\ is_mat m (pairs_before (length ks) ks) (atleast_2d u) /\
       forall t j, t < length Qs -> j + 1 < nth t ks 0 -> colv m (atleast_2d u) (pairs_before t ks + j) = colv m (atleast_2d (nth t us (V []))) j).
Proof. exact discrete_training. Qed.
Print Assumptions C52_fit_discrete.

(* C52: time-continuous model, lhs given: column j of trajectory t is encoded, with its derivative, into the same column of the states and of the derivatives the model is fitted on; inputs are aligned. *)
Theorem C52_fit_continuous :
  forall LX r T ft fb r' Qs Zs Us n0 n p ks,
  rm_cont r = true -> trajectories_of T (map M Qs) (Some (map M Zs)) Us -> same_length (map M Qs) Us ->
  rom_fit LX r T ft fb = (r', Ok tt) -> trajectories n0 ks Qs -> blocks n0 ks Zs -> 0 < n0 -> 0 < p -> trained_parts n p (rm_parts r') ->
  columnwise_lifter n0 n (rp_lift (rm_parts r')) -> columnwise_ddts n0 n (rp_lift (rm_parts r')) ->
  exists A D U, model_fit LX (rm_model r) (M A) (M D) U = (rm_model r', Ok tt) /\ is_mat p (lsumn ks) A /\ is_mat p (lsumn ks) D /\
    (forall t j, t < length Qs -> j < nth t ks 0 ->
       encode (rm_parts r') true (V (colv n0 (nth t Qs []) j)) (Some (V (colv n0 (nth t Zs []) j))) =
         Ok (V (colv p A (lsumn (firstn t ks) + j)), Some (V (colv p D (lsumn (firstn t ks) + j))))) /\
    (Us = None -> U = None) /\
    (forall us m, Us = Some (map M us) -> 0 < m -> blocks m ks us -> exists u, U = Some (M u) /\ is_mat m (lsumn ks) u /\
       forall t j, t < length Qs -> j < nth t ks 0 -> colv m u (lsumn (firstn t ks) + j) = colv m (nth t us []) j).
Proof. exact continuous_training. Qed.
Print Assumptions C52_fit_continuous.

(* C52: PolynomialLifters work column by column, as C52_fit_discrete asks of a lifter. *)
Theorem C52_polynomial_lifter :
  forall n ns,
  In 1 ns -> columnwise_lifter n (length ns * n) (Some (poly_lifter (map INR ns))).
Proof. exact poly_columns. Qed.
Print Assumptions C52_polynomial_lifter.

(* C52: so does the QuadraticLifter. *)
Theorem C52_quadratic_lifter :
  forall n,
  columnwise_lifter n (2 * n) (Some quad_lifter).
Proof. exact quad_columns. Qed.
Print Assumptions C52_quadratic_lifter.

(* C52: so does lift_ddts of a PolynomialLifter, as C52_fit_continuous asks of a lifter. *)
Theorem C52_polynomial_lifter_ddts :
  forall n ns,
  ns <> [] -> Forall (lt 0) ns -> columnwise_ddts n (length ns * n) (Some (poly_lifter (map INR ns))).
Proof. exact poly_ddts_columns. Qed.
Print Assumptions C52_polynomial_lifter_ddts.

(* C52: so does lift_ddts of the QuadraticLifter. *)
Theorem C52_quadratic_lifter_ddts :
  forall n,
  columnwise_ddts n (2 * n) (Some quad_lifter).
Proof. exact quad_ddts_columns. Qed.
Print Assumptions C52_quadratic_lifter_ddts.

(* C52: fit raises ValueError and changes nothing if a time-continuous model gets neither lhs nor an estimator, or a model with inputs gets none. *)
Theorem C52_fit_refuses :
  forall LX r T ft fb,
  let '(lhs, inp) := train_args T in
  (lhs = false /\ rm_cont r = true /\ rm_ddt r = None) \/ (inp = false /\ m_hasin (rm_model r) = true) -> rom_fit LX r T ft fb = (r, Err ValueError).
Proof. exact rom_fit_refuses. Qed.
Print Assumptions C52_fit_refuses.

(* C52: the constructor keeps model, lifter, transformer and basis, and the estimator for a time-continuous model. *)
Theorem C52_constructor :
  forall d lf t b D,
  let r := mk_rom d lf t b D in rm_model r = d /\ rp_lift (rm_parts r) = lf /\ rp_tf (rm_parts r) = t /\ rp_basis (rm_parts r) = b /\ (m_kind d = KContinuous -> rm_ddt r = D).
Proof. exact rom_made. Qed.
Print Assumptions C52_constructor.

(* C52: with a model that is not time-continuous an estimator makes no difference. *)
Theorem C52_estimator_ignored :
  forall X d lf t b D T ft fb,
  m_kind d <> KContinuous -> rom_fit X (mk_rom d lf t b D) T ft fb = rom_fit X (mk_rom d lf t b None) T ft fb.
Proof. exact estimator_ignored. Qed.
Print Assumptions C52_estimator_ignored.

(* C52: a time-discrete parametric model does not look at inputs beyond the last state of a trajectory. *)
Theorem C52_inputs_beyond_the_end :
  forall X d mus qs zs us us',
  pm_kind (pa_base d) = KDiscrete -> length us = length qs -> length us' = length qs ->
  (forall i q u u', nth_error qs i = Some q -> nth_error us i = Some u -> nth_error us' i = Some u' -> agree_upto (width_of q) u u') ->
  pmodel_fit X d mus qs zs (Some us) = pmodel_fit X d mus qs zs (Some us').
Proof. exact inputs_cut. Qed.
Print Assumptions C52_inputs_beyond_the_end.

(* C52: ParametricROM.fit hands the contributions of the trajectories to the model one by one, each with its parameter. *)
Theorem C52_fit_parametric :
  forall PX r mus Qs Zs Us ft fb r',
  same_length Qs Zs -> same_length Qs Us -> prom_fit PX r mus Qs Zs Us ft fb = (r', Ok tt) ->
  exists es ds us, fitted_on ft fb Qs (pr_parts r) (pr_parts r') /\ contributions (pr_parts r') (pr_ddt r) (pr_cont r) Qs Zs Us es ds us /\
    pmodel_fit PX (pr_model r) mus es ds us = (pr_model r', Ok tt) /\ pr_ddt r' = pr_ddt r.
Proof. exact prom_fit_ok. Qed.
Print Assumptions C52_fit_parametric.

(* C52: predict encodes the initial state, iterates the model from there and decodes: column j of the result is the decoded j-th reduced state. *)
Theorem C52_predict :
  forall X r p n0 n q0 e N inputs,
  SpecMono.trained X (rm_model r) p -> trained_parts n p (rm_parts r) -> columnwise_lifter n0 n (rp_lift (rm_parts r)) ->
  is_vec n0 q0 -> enough_inputs (rm_model r) inputs N -> 1 <= N -> encode1 (rm_parts r) (V q0) = Ok e ->
  exists A, is_mat p N A /\ e = V (colv p A 0) /\
    (forall j, j + 1 < N -> rhs (rm_model r) (V (colv p A j)) (step_input (rm_model r) inputs j) = Ok (V (colv p A (j + 1)))) /\
    rom_predict r (V q0) (Z.of_nat N) inputs = decode (rm_parts r) (M A) None /\
    forall Y, decode (rm_parts r) (M A) None = Ok Y -> exists Q, Y = M Q /\ is_mat n0 N Q /\ forall j, j < N -> decode (rm_parts r) (V (colv p A j)) None = Ok (V (colv n0 Q j)).
Proof. exact predict_ok. Qed.
Print Assumptions C52_predict.

(* C52: predict raises what encoding the initial state raises. *)
Theorem C52_predict_refuses :
  forall r q0 N inputs e,
  encode1 (rm_parts r) q0 = Err e -> rom_predict r q0 N inputs = Err e.
Proof. exact predict_refuses. Qed.
Print Assumptions C52_predict_refuses.

(* C52: ParametricROM.predict at a parameter is ROM.predict with the model evaluated there. *)
Theorem C52_predict_parametric :
  forall r mu q0 N inputs d,
  snd (pevaluate (pa_base (pr_model r)) mu) = Ok d ->
  prom_predict r mu q0 N inputs = rom_predict {| rm_parts := pr_parts r; rm_ddt := pr_ddt r; rm_model := d |} q0 N inputs.
Proof. exact prom_predict_ok. Qed.
Print Assumptions C52_predict_parametric.

(* C52, false if there are fewer inputs than trajectories: with a derivative estimator fit succeeds and silently ignores the other trajectories. *)
Theorem C52_short_inputs_refuted :
  exists LX r q1 q2 u r', lsx_ok LX /\ rm_cont r = true /\ q1 <> q2 /\
  rom_fit LX r (Several [q1; q2] None (Some [u])) false None = (r', Ok tt) /\ rom_fit LX r (Several [q1] None (Some [u])) false None = (r', Ok tt).
Proof. exact short_inputs. Qed.
Print Assumptions C52_short_inputs_refuted.

(* C52, false for steady models: fit of a ROM with a SteadyModel always raises. *)
Theorem C52_steady_refuted :
  forall LX r T ft fb,
  m_kind (rm_model r) = KSteady -> exists e, snd (rom_fit LX r T ft fb) = Err e.
Proof. exact steady_fit. Qed.
Print Assumptions C52_steady_refuted.

(* ---- the hypotheses are met ---- *)
Example C51_example : trained_parts 2 1 exP /\ columnwise_lifter 2 2 (rp_lift exP) /\ encode1 exP (M [[5 / 4; 9 / 4]; [7; 8]]%R) = Ok (M [[1; 5]]%R) /\
  flat (TPipe [TShift [1; 2]%R None; TScale (Sc 2) (Some 2) None] None) /\ in_range (Some (BOne exb)) 1 1 (V [1 / 2; 0]%R) /\ In 1 [2; 1] /\ Forall (lt 0) [2; 1].
Proof.
  split; [exact exP_trained|]. split; [reflexivity|]. split; [exact exP_encode|]. split; [apply case_flat|]. split; [|split; [cbn; auto|repeat constructor]].
  exists (V [1]%R). split; [split; reflexivity|]. split; [exact I|]. cbn. do 3 f_equal; try lra. do 1 f_equal. lra.
Qed.
Example C52_example : rom_fit X0 exR (Single [[5 / 4; 9 / 4]; [7; 8]]%R None None) false None = (exR1, Ok tt) /\
  trajectories_of (Single [[5 / 4; 9 / 4]; [7; 8]]%R None None) (map M [[[5 / 4; 9 / 4]; [7; 8]]%R]) None None /\ rm_cont exR = false /\
  trajectories 2 [2] [[[5 / 4; 9 / 4]; [7; 8]]%R] /\ SpecMono.trained X0 (rm_model exR1) 1 /\ enough_inputs (rm_model exR1) None 3.
Proof.
  split; [exact exR_fit|]. split; [repeat split|]. split; [reflexivity|]. split. { split; [|split; [repeat constructor|discriminate]]. constructor; [|constructor]. split; repeat constructor. }
  split; [exact exR1_trained|]. intros H. discriminate H.
Qed.
Example C52_example_continuous : rom_fit X0 {| rm_parts := noP; rm_ddt := None; rm_model := dA |} (Several [M [[1]]%R] (Some [M [[2]]%R]) None) false None =
  ({| rm_parts := noP; rm_ddt := None; rm_model := dA1 |}, Ok tt) /\ trained_parts 1 1 noP /\ columnwise_ddts 1 1 None /\ trajectories 1 [1] [[[1]]%R] /\ blocks 1 [1] [[[2]]%R].
Proof.
  split; [exact exC_fit|]. split; [split; [exact I|reflexivity]|]. split; [reflexivity|]. split. { split; [|split; [repeat constructor|discriminate]]. constructor; [|constructor]. split; repeat constructor. }
  constructor; [|constructor]. split; repeat constructor.
Qed.
Example C52_example_inputs : agree_upto 2 (M [[1; 2; 9]]%R) (M [[1; 2]]%R) /\ agree_upto 1 (V [3; 4]%R) (V [3]%R).
Proof.
  split; [|cbn; repeat split; try lia; intros [|i] Hi; [reflexivity|lia]].
  exists 1, 3, 2. repeat split; try lia; auto. intros [|i] [|[|j]] Hi Hj; try lia; reflexivity.
Qed.

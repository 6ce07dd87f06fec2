(* Prop_VerifyLift.v -- property C69 (verify() of lifters). *)
From Coq Require Import String ZArith Reals Lra Lia List.
From Verif Require Import LinAlg LiftProofs DdtProofs VerifyLiftProofs VerifyLiftMore.
From Verif Require Import SpecVerifyLift.
#[local] Open Scope nat_scope.
#[local] Open Scope list_scope.

(* C69: verify() of a PolynomialLifter with positive integers as orders returns or raises VerificationError, and returns exactly if lift_ddts() of the estimated derivatives is the estimated derivative of the lifted states, up to the tolerance. One of the orders is 1, or the states are not negative. *)
Theorem C69_polynomial_verdict :
  forall n k ns Q t tol D,
  0 < n -> is_mat n k Q -> ns <> [] -> (forall p, In p ns -> 0 < p) ->
  In 1 ns \/ (forall i j, i < n -> j < k -> (0 <= mget Q i j)%R) -> (0 <= tol)%R -> ddt (M Q) [t] [] = Ok D ->
  exists L E est, powers n k ns Q L /\ power_derivatives n k ns Q D E /\ ddt (M L) [t] [] = Ok est /\ is_mat (length ns * n) k est /\
  (v_lifter (poly_lifter (map INR ns)) (M Q) (Some t) tol = Ok tt <-> within (length ns * n) k tol E est) /\
  (v_lifter (poly_lifter (map INR ns)) (M Q) (Some t) tol = Err VerificationError <-> ~ within (length ns * n) k tol E est).
Proof. exact poly_verdict_all. Qed.
Print Assumptions C69_polynomial_verdict.

(* C69: the same for QuadraticLifter, for all states. *)
Theorem C69_quadratic_verdict :
  forall n k Q t tol D,
  0 < n -> is_mat n k Q -> (0 <= tol)%R -> ddt (M Q) [t] [] = Ok D ->
  exists L E est, powers n k [1; 2] Q L /\ power_derivatives n k [1; 2] Q D E /\ ddt (M L) [t] [] = Ok est /\ is_mat (2 * n) k est /\
  (v_lifter quad_lifter (M Q) (Some t) tol = Ok tt <-> within (2 * n) k tol E est) /\
  (v_lifter quad_lifter (M Q) (Some t) tol = Err VerificationError <-> ~ within (2 * n) k tol E est).
Proof. exact quad_verdict. Qed.
Print Assumptions C69_quadratic_verdict.

(* C69: verify() of QuadraticLifter returns for every tolerance, zero included, if the states are affine functions of the times, which may be spaced unevenly. *)
Theorem C69_affine_times :
  forall n k t A B Q tol,
  0 < n -> 3 <= k -> length t = k -> (forall j, S j < k -> (vget t j < vget t (S j))%R) ->
  is_mat n k Q -> (forall i j, i < n -> j < k -> mget Q i j = (vget A i + vget B i * vget t j)%R) -> (0 <= tol)%R ->
  v_lifter quad_lifter (M Q) (Some (AArray (V t))) tol = Ok tt.
Proof. exact quad_affine_times. Qed.
Print Assumptions C69_affine_times.

(* C69: the same for a time step. *)
Theorem C69_affine_step :
  forall n k t0 dt A B Q tol,
  0 < n -> 3 <= k -> dt <> 0%R ->
  is_mat n k Q -> (forall i j, i < n -> j < k -> mget Q i j = (vget A i + vget B i * (t0 + INR j * dt))%R) -> (0 <= tol)%R ->
  v_lifter quad_lifter (M Q) (Some (AFloat dt)) tol = Ok tt.
Proof. exact quad_affine_step. Qed.
Print Assumptions C69_affine_step.

(* C69, refuted for orders without 1: a negative state makes verify() raise VerificationError, always. *)
Theorem C69_negative_refuted :
  forall n k ns Q t tol i j,
  0 < n -> is_mat n k Q -> ns <> [] -> (forall p, In p ns -> 2 <= p) -> i < n -> j < k -> (mget Q i j <= - (/ 10 ^ 8))%R ->
  v_lifter (poly_lifter (map INR ns)) (M Q) t tol = Err VerificationError.
Proof. exact negative_states. Qed.
Print Assumptions C69_negative_refuted.

(* C69, refuted for orders with 0: a state that is zero makes verify() raise ValueError, always, although lift() and unlift() are right. *)
Theorem C69_order_zero_refuted :
  forall n k ns Q t tol D i j,
  0 < n -> is_mat n k Q -> In 1 ns -> In 0 ns -> i < n -> j < k -> mget Q i j = 0%R -> ddt (M Q) [t] [] = Ok D ->
  v_lifter (poly_lifter (map INR ns)) (M Q) (Some t) tol = Err ValueError.
Proof. exact zero_order. Qed.
Print Assumptions C69_order_zero_refuted.

(* C69: without times verify() raises ValueError, since lift_ddts() is implemented. *)
Theorem C69_no_times :
  forall n k ns Q tol,
  0 < n -> is_mat n k Q -> ns <> [] -> (forall p, In p ns -> 0 < p) ->
  In 1 ns \/ (forall i j, i < n -> j < k -> (0 <= mget Q i j)%R) -> v_lifter (poly_lifter (map INR ns)) (M Q) None tol = Err ValueError.
Proof. exact poly_no_time_all. Qed.
Print Assumptions C69_no_times.

(* C69: the same for QuadraticLifter. *)
Theorem C69_no_times_quadratic :
  forall n k Q tol,
  0 < n -> is_mat n k Q -> v_lifter quad_lifter (M Q) None tol = Err ValueError.
Proof. exact quad_no_time. Qed.
Print Assumptions C69_no_times_quadratic.

(* C69: states with one dimension raise IndexError. *)
Theorem C69_one_dimension :
  forall v t tol,
  (forall orders, orders <> [] -> v_lifter (poly_lifter orders) (V v) t tol = Err IndexError) /\ v_lifter quad_lifter (V v) t tol = Err IndexError.
Proof. exact flat_states. Qed.
Print Assumptions C69_one_dimension.

(* C69: if verify() of any lifter returns, lift() keeps the number of columns, unlift() undoes it for these states up to the documented tolerance, and lift_ddts() is within the tolerance of the estimated derivatives of the lifted states. *)
Theorem C69_accepted_is_checked :
  forall o n k Q t tol,
  0 < n -> is_mat n k Q -> v_lifter o (M Q) t tol = Ok tt -> lifter_checked o n k Q t tol.
Proof. exact lifter_accepted. Qed.
Print Assumptions C69_accepted_is_checked.

(* ---- the hypotheses can be met ---- *)
Definition t69 : vec := [0; 1; 3]%R.
Definition Q69 : mat := [[1; 2; 4]; [-2; -2; -2]]%R.
Lemma Q69_mat : is_mat 2 3 Q69. Proof. split; repeat constructor. Qed.
Lemma Q69_affine i j : i < 2 -> j < 3 -> mget Q69 i j = (vget [1; -2]%R i + vget [1; 0]%R i * vget t69 j)%R.
Proof. intros Hi Hj. destruct i as [|[|i]]; [| |lia]; destruct j as [|[|[|j]]]; try lia; unfold mget, vget; cbn; lra. Qed.
Lemma t69_inc j : S j < 3 -> (vget t69 j < vget t69 (S j))%R.
Proof. intros Hj. destruct j as [|[|j]]; try lia; unfold vget; cbn; lra. Qed.
Example C69_example_accepted : v_lifter quad_lifter (M Q69) (Some (AArray (V t69))) 0 = Ok tt.
Proof. apply (C69_affine_times 2 3 t69 [1; -2]%R [1; 0]%R); auto; [exact t69_inc|exact Q69_mat|exact Q69_affine|lra]. Qed.
(* the states 1, 0, 0 at the times 0, 1, 2 are rejected with the tolerance 0.1 *)
Definition u69 : vec := [0; 1; 2]%R.
Definition P69 : mat := [[1; 0; 0]]%R.
Lemma P69_mat : is_mat 1 3 P69. Proof. split; repeat constructor. Qed.
Lemma grad69 : gradient [1; 0; 0]%R u69 = [-3/2; -1/2; 1/2]%R.
Proof. unfold gradient, grad_first, grad_last, grad_mid, vget. cbn. repeat (f_equal; try field). Qed.
Example C69_example_rejected : v_lifter quad_lifter (M P69) (Some (AArray (V u69))) (1 / 10) = Err VerificationError.
Proof.
  destruct (C69_quadratic_verdict 1 3 P69 (AArray (V u69)) (1 / 10) (map (fun f => gradient f u69) P69)) as (L & E & est & HL & HE & H1 & H2 & _ & HV); auto using P69_mat; [lra| ]. apply HV. clear HV.
  assert (EL : L = [[1; 0; 0]; [1; 0; 0]]%R).
  { apply (mat_ext 2 3); [apply HL|split; repeat constructor|]. intros i j Hi Hj. pose proof (proj2 HL i 0 j Hi ltac:(lia) Hj) as K. rewrite Nat.mul_1_r, Nat.add_0_r in K. rewrite K. destruct i as [|[|i]]; [| |lia]; destruct j as [|[|[|j]]]; try lia; unfold mget; cbn; lra. }
  subst L. cbn -[gradient] in H1. injection H1 as <-. intros W. unfold P69 in HE at 2. cbn [map] in HE. rewrite ?grad69 in *. unfold within in W.
  assert (G : forall a j x, a < 2 -> j < 3 -> mget E (a * 1 + 0) j = x -> mget E a j = x) by (intros a j x _ _; now rewrite Nat.mul_1_r, Nat.add_0_r).
  assert (E00 : mget E 0 0 = (-3/2)%R) by (apply G; try lia; rewrite (proj2 HE 0 0 0) by (cbn; lia); unfold mget, P69, gradient; cbn; lra).
  assert (E01 : mget E 0 1 = (-1/2)%R) by (apply G; try lia; rewrite (proj2 HE 0 0 1) by (cbn; lia); unfold mget, P69, gradient; cbn; lra).
  assert (E02 : mget E 0 2 = (1/2)%R) by (apply G; try lia; rewrite (proj2 HE 0 0 2) by (cbn; lia); unfold mget, P69, gradient; cbn; lra).
  assert (E10 : mget E 1 0 = (-3)%R) by (apply G; try lia; rewrite (proj2 HE 1 0 0) by (cbn; lia); unfold mget, P69, gradient; cbn; lra).
  assert (E11 : mget E 1 1 = 0%R) by (apply G; try lia; rewrite (proj2 HE 1 0 1) by (cbn; lia); unfold mget, P69, gradient; cbn; lra).
  assert (E12 : mget E 1 2 = 0%R) by (apply G; try lia; rewrite (proj2 HE 1 0 2) by (cbn; lia); unfold mget, P69, gradient; cbn; lra).
  unfold distance, norm in W. cbn [Nat.mul Nat.add length bsum] in W. rewrite E00, E01, E02, E10, E11, E12 in W. unfold mget, gradient in W. cbn in W. unfold Rsqr in W.
  match type of W with (sqrt ?a <= 1 / 10 * sqrt ?b)%R => assert (A : (0 <= a)%R) by nra; assert (B : (0 <= b)%R) by nra; pose proof (sqrt_pos a); pose proof (sqrt_pos b); pose proof (sqrt_sqrt a A) as SA; pose proof (sqrt_sqrt b B) as SB; assert (AB : (a <= 1 / 100 * b)%R) by (rewrite <- SA, <- SB; nra) end.
  lra.
Qed.
Example C69_example_negative : v_lifter (poly_lifter (map INR [2; 3])) (M Q69) None 1 = Err VerificationError.
Proof. apply (C69_negative_refuted 2 3 [2; 3] Q69 None 1 1 0); auto; [exact Q69_mat|discriminate|intros p [<-|[<-|[]]]; lia|]. unfold mget. cbn. lra. Qed.
Example C69_example_zero : v_lifter (poly_lifter (map INR [1; 0])) (M P69) (Some (AFloat 1)) 1 = Err ValueError.
Proof.
  destruct (ddt_uniform_shape 2 1 3 1 P69) as [D [ED HD]]; auto using P69_mat.
  apply (C69_order_zero_refuted 1 3 [1; 0] P69 (AFloat 1) 1 D 0 1); auto; [exact P69_mat|left; auto|right; left; auto].
Qed.
(* a user's lifter without lift_ddts() that repeats the states *)
Definition twice69 : lifter :=
  {| vl_lift := fun Q => Ok (match Q with M m => NM (map (map F) (m ++ m)) | V v => NV (map F (v ++ v)) end);
     vl_unlift := fun L => Ok (match L with NM m => NM (firstn (Nat.div (length m) 2) m) | NV v => NV v end); vl_ddts := None |}.
Example C69_example_user : v_lifter twice69 (M Q69) None 1 = Ok tt.
Proof.
  unfold v_lifter. cbn [vl_lift twice69 bind nshape1 ashape1]. change (vl_unlift twice69 _) with (Ok (finite (M Q69))). cbn [bind].
  change (length (hd [] (map (map F) (Q69 ++ Q69))) =? ncols Q69) with true. cbn [rassert bind]. rewrite (nshape_fin 2 3 Q69 Q69 ltac:(lia) Q69_mat Q69_mat), nallclose_refl. reflexivity.
Qed.

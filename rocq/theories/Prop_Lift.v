(* Prop_Lift.v -- property C49: lifting maps. *)
From Coq Require Import ZArith Lia Lra List.
From Verif Require Import LiftDeriv.
#[local] Open Scope R_scope.

(* C49, anchor: for a natural number n, x ** n is the product of n factors x. *)
Theorem C49_natural_powers :
  forall x n,
  npow (F x) (INR n) = F (x ^ n).
Proof. exact npow_nat. Qed.
Print Assumptions C49_natural_powers.

(* C49: block a of PolynomialLifter.lift(Q) is Q ** orders[a]. *)
Theorem C49_lift_entries :
  forall orders Q L a i j,
  proper Q -> poly_lift orders Q = Ok L -> (a < length orders)%nat -> (i < arows Q)%nat -> (j < acols Q)%nat ->
  nget L (a * arows Q + i) j = npow (F (aget Q i j)) (nth a orders 0).
Proof. exact poly_lift_entry. Qed.
Print Assumptions C49_lift_entries.

(* C49: lift works for every nonempty list of orders and has len(orders) times as many rows. *)
Theorem C49_lift_defined :
  forall orders Q,
  proper Q -> orders <> [] -> exists L, poly_lift orders Q = Ok L /\ nrows_n L = (length orders * arows Q)%nat.
Proof. exact poly_lift_defined. Qed.
Print Assumptions C49_lift_defined.

(* C49: unlift(lift(Q)) is Q exactly if 1 is among the orders, or every entry of Q is recoverable from its power of the first nonzero order: nonnegative, or that order is -1. *)
Theorem C49_unlift_lift :
  forall orders Q L,
  proper Q -> orders <> [] -> poly_lift orders Q = Ok L ->
  (poly_unlift orders L = Ok (finite Q) <-> (In 1 orders \/ exists p, first_nonzero orders p /\ forall x, In x (entries Q) -> recoverable p x)).
Proof. exact poly_unlift_lift. Qed.
Print Assumptions C49_unlift_lift.

(* C49: if every order is zero, unlift raises ZeroDivisionError. *)
Theorem C49_all_orders_zero :
  forall orders Q L,
  proper Q -> orders <> [] -> (forall p, In p orders -> p = 0) -> poly_lift orders Q = Ok L -> poly_unlift orders L = Err ZeroDivisionError.
Proof. exact poly_unlift_zero. Qed.
Print Assumptions C49_all_orders_zero.

(* C49: without orders nothing can be lifted. *)
Theorem C49_no_orders :
  forall Q L,
  poly_lift [] Q = Err ValueError /\ poly_unlift [] L = Err ZeroDivisionError.
Proof. exact empty_orders. Qed.
Print Assumptions C49_no_orders.

(* C49: wherever x -> x^p is differentiable, lift_ddts(Q, D) is the derivative of lift along the line Q + t D. *)
Theorem C49_lift_ddts :
  forall orders Q D,
  same_shape Q D -> orders <> [] ->
  exists D', poly_lift_ddts orders Q D = Ok D' /\ nrows_n D' = (length orders * arows Q)%nat /\
  forall a i j, (a < length orders)%nat -> (i < arows Q)%nat -> (j < acols Q)%nat -> smooth (nth a orders 0) (aget Q i j) ->
    exists v, nget D' (a * arows Q + i) j = F v /\
      derivative_at_0 (fun t => match poly_lift orders (aline Q D t) with Ok L => nget L (a * arows Q + i) j | Err _ => NaN end) v.
Proof. exact poly_chain_rule. Qed.
Print Assumptions C49_lift_ddts.

(* C49: for orders 1, 2, 3, ... this holds for all states. *)
Theorem C49_lift_ddts_natural :
  forall orders Q D,
  same_shape Q D -> orders <> [] -> (forall p, In p orders -> exists n, p = INR (S n)) ->
  exists D', poly_lift_ddts orders Q D = Ok D' /\
  forall a i j, (a < length orders)%nat -> (i < arows Q)%nat -> (j < acols Q)%nat ->
    exists v, nget D' (a * arows Q + i) j = F v /\
      derivative_at_0 (fun t => match poly_lift orders (aline Q D t) with Ok L => nget L (a * arows Q + i) j | Err _ => NaN end) v.
Proof. exact poly_chain_rule_nat. Qed.
Print Assumptions C49_lift_ddts_natural.

(* C49: QuadraticLifter: unlift(lift(Q)) = Q for every Q. *)
Theorem C49_quadratic_inverse :
  forall Q,
  proper Q -> exists L, quad_lift Q = Ok L /\ nrows_n L = (2 * arows Q)%nat /\ quad_unlift L = Ok (finite Q).
Proof. exact quad_unlift_lift. Qed.
Print Assumptions C49_quadratic_inverse.

(* C49: QuadraticLifter.lift(Q) stacks Q and its squares. *)
Theorem C49_quadratic_entries :
  forall Q L i j,
  proper Q -> quad_lift Q = Ok L -> (i < arows Q)%nat -> (j < acols Q)%nat ->
  nget L i j = F (aget Q i j) /\ nget L (arows Q + i) j = F (aget Q i j * aget Q i j).
Proof. exact quad_lift_entry. Qed.
Print Assumptions C49_quadratic_entries.

(* C49: QuadraticLifter.lift_ddts(Q, D) is the derivative of lift along Q + t D, for all Q and D. *)
Theorem C49_quadratic_ddts :
  forall Q D,
  same_shape Q D -> exists D', quad_lift_ddts Q D = Ok D' /\ nrows_n D' = (2 * arows Q)%nat /\
  forall i j, (i < 2 * arows Q)%nat -> (j < acols Q)%nat ->
    exists v, nget D' i j = F v /\ derivative_at_0 (fun t => match quad_lift (aline Q D t) with Ok L => nget L i j | Err _ => NaN end) v.
Proof. exact quad_chain_rule. Qed.
Print Assumptions C49_quadratic_ddts.

(* C49: a sequence of numbers is accepted as it is, a number is truncated towards zero to an integer, anything else raises TypeError. *)
Theorem C49_orders :
  forall a,
  match a with
  | NotIterable => set_orders a = Err TypeError
  | Number x => exists z, set_orders a = Ok [IZR z] /\ Rabs (IZR z) <= Rabs x /\ Rabs (x - IZR z) < 1
  | Sequence l => (forall v, set_orders a = Ok v <-> l = map Num v) /\ (set_orders a = Err TypeError <-> In NotNum l)
  end.
Proof. exact set_orders_ok. Qed.
Print Assumptions C49_orders.

(* C49, false as announced in the documentation: with the single order 2 a negative state comes back positive. *)
Theorem C49_even_order_refuted :
  exists Q L, proper Q /\ poly_lift [2] Q = Ok L /\ poly_unlift [2] L = Ok (NV [F 1]) /\ finite Q = NV [F (-1)].
Proof. exact even_orders_forget_signs. Qed.
Print Assumptions C49_even_order_refuted.

(* C49, false although cube roots exist: with the single order 3 a negative state comes back as nan. *)
Theorem C49_odd_order_refuted :
  exists Q L, proper Q /\ poly_lift [3] Q = Ok L /\ poly_unlift [3] L = Ok (NV [NaN]).
Proof. exact odd_orders_give_nan. Qed.
Print Assumptions C49_odd_order_refuted.

(* C49, false: with order 0 the lifted state is constantly 1, but lift_ddts gives nan at a zero state. *)
Theorem C49_order_zero_refuted :
  exists Q D D', same_shape Q D /\ poly_lift_ddts [0] Q D = Ok D' /\ nget D' 0 0 = NaN /\
  derivative_at_0 (fun t => match poly_lift [0] (aline Q D t) with Ok L => nget L 0 0 | Err _ => NaN end) 0.
Proof. exact order_zero_nan. Qed.
Print Assumptions C49_order_zero_refuted.

(* C49, false: PolynomialLifter(0.5) does not have the order 0.5 but the order 0. *)
Theorem C49_half_refuted :
  set_orders (Number (1 / 2)) = Ok [0].
Proof. exact half_becomes_zero. Qed.
Print Assumptions C49_half_refuted.


(* ---- the hypotheses are met ---- *)
Example lift_matrix : proper (M [[1; -2]; [0; 3]]) /\ same_shape (M [[1; -2]; [0; 3]]) (M [[1; 1]; [2; 5]]).
Proof. assert (H : is_mat 2 2 [[1; -2]; [0; 3]] /\ is_mat 2 2 [[1; 1]; [2; 5]]) by (split; (split; [reflexivity|repeat constructor])).
  split; exists 2%nat, 2%nat; tauto || (split; [lia|apply H]). Qed.
Example lift_quadratic : exists L, quad_lift (M [[1; -2]; [0; 3]]) = Ok L /\ nget L 3 1 = F 9 /\ nget L 0 1 = F (-2).
Proof.
  destruct (C49_quadratic_inverse (M [[1; -2]; [0; 3]]) (proj1 lift_matrix)) as (L & E & _). exists L. split; auto.
  destruct (C49_quadratic_entries _ L 1%nat 1%nat (proj1 lift_matrix) E) as [_ H]; [cbn; lia|cbn; lia|].
  destruct (C49_quadratic_entries _ L 0%nat 1%nat (proj1 lift_matrix) E) as [H' _]; [cbn; lia|cbn; lia|]. cbn in H, H'. split; auto. rewrite H. f_equal. ring.
Qed.
(* an order list whose first nonzero order is a half, on nonnegative data *)
Example lift_half : first_nonzero [0; 1 / 2; 3] (1 / 2) /\ (forall x, In x (entries (V [0; 2; 5])) -> recoverable (1 / 2) x) /\ ~ In 1 [0; 1 / 2; 3].
Proof.
  split; [exists [0], [3]; split; auto; split; [lra|]; intros x [<-|[]]; auto|]. split.
  - intros x [<-|[<-|[<-|[]]]]; left; lra.
  - intros [H|[H|[H|[]]]]; lra.
Qed.
(* reciprocal variables of either sign *)
Example lift_reciprocal : forall x, In x (entries (V [-2; 5])) -> recoverable (-1) x.
Proof. intros x [<-|[<-|[]]]; [right|left]; lra. Qed.
Example lift_smooth : smooth (1 / 2) 2 /\ smooth (-3) (-2) /\ smooth 2 0.
Proof. split; [left; lra|]. split; [right; left; split; [lra|]; exists (-3)%Z; reflexivity|]. right; right. split; auto. exists 1%nat. cbn. ring. Qed.

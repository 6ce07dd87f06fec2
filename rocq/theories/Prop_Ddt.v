(* Prop_Ddt.v -- properties C41, C42, C43. *)
From Verif Require Import SpecDdt DdtProofs.
#[local] Open Scope nat_scope.

(* C41: fwd1..fwd6, bwd1..bwd6, ctr2/4/6 (the schemes with a mode) are exact on polynomials of degree at most the
   order, at every retained time, for every nonzero step; the states returned are the columns at those times. *)
Theorem C41_exact_on_polynomials :
  forall (s : scheme) (md : mode) (r k : nat) (Q : mat) (dt t0 : R) (u : option arr) (cs : nat -> list R),
  scheme_mode s = Some md -> 0 < r -> dt <> 0%R -> scheme_order s <= k ->
  (forall i, i < r -> length (cs i) <= S (scheme_order s)) -> samples r k (grid t0 dt) (fun i => peval (cs i)) Q ->
  let p := scheme_order s in let a := first_col md p in
  exists S D U, run_scheme s Q dt u = Ok (S, D, U) /\ is_mat r (k - p) S /\ is_mat r (k - p) D /\
  forall i j, i < r -> j < k - p ->
    mget S i j = mget Q i (a + j) /\ derivable_pt_lim (peval (cs i)) (grid t0 dt (a + j)) (mget D i j).
Proof. exact scheme_exact. Qed.
Print Assumptions C41_exact_on_polynomials.

(* C41: and never exact on x^(order + 1). *)
Theorem C41_not_exact_at_next_degree :
  forall (s : scheme) (md : mode) (r k : nat) (Q : mat) (dt t0 : R) (u : option arr),
  scheme_mode s = Some md -> 0 < r -> dt <> 0%R -> scheme_order s <= k ->
  samples r k (grid t0 dt) (fun i x => x ^ S (scheme_order s))%R Q ->
  let p := scheme_order s in let a := first_col md p in
  exists S D U, run_scheme s Q dt u = Ok (S, D, U) /\
  forall i j, i < r -> j < k - p ->
    ~ derivable_pt_lim (fun x => x ^ Datatypes.S p)%R (grid t0 dt (a + j)) (mget D i j).
Proof. exact scheme_not_exact. Qed.
Print Assumptions C41_not_exact_at_next_degree.

(* C41: the inputs are returned at the retained times too (one- and two-dimensional inputs); fewer snapshots than the
   order raise. *)
Theorem C41_inputs_and_short_data :
  forall (s : scheme) (md : mode) (r k : nat) (Q : mat) (dt : R), scheme_mode s = Some md -> 0 < r -> is_mat r k Q ->
  let p := scheme_order s in let a := first_col md p in
  (p <= k -> forall m U, is_mat m k U -> exists S D U', run_scheme s Q dt (Some (M U)) = Ok (S, D, Some (M U')) /\
     is_mat m (k - p) U' /\ forall i j, i < m -> j < k - p -> mget U' i j = mget U i (a + j)) /\
  (p <= k -> forall v, is_vec k v -> exists S D v', run_scheme s Q dt (Some (V v)) = Ok (S, D, Some (V v')) /\
     is_vec (k - p) v' /\ forall j, j < k - p -> vget v' j = vget v (a + j)) /\
  (k < p -> forall u, run_scheme s Q dt u = Err ValueError).
Proof. exact scheme_inputs. Qed.
Print Assumptions C41_inputs_and_short_data.

Example C41_case : samples 1 4 (grid 1 (1/2)) (fun _ => peval [0; 0; 1]%R) [[1; 9/4; 4; 25/4]]%R /\ scheme_mode Fwd2 = Some Fwd.
Proof. exact samples_case. Qed.

(* C42: UniformFiniteDifferencer.estimate returns mask(states), derivatives with as many columns, and mask(inputs). *)
Theorem C42_estimate_matches_mask :
  forall (e : ufd) (r k : nat) (Q : mat) (u : option arr), 0 < r -> is_mat r k Q -> enough (u_scheme e) k -> aligned k u ->
  exists S D, ufd_estimate e (M Q) u = Ok (S, D, match u with None => None | Some u => Some (ufd_mask e (M (two_dim u))) end) /\
  M S = ufd_mask e (M Q) /\ is_mat r (kept (u_scheme e) k) S /\ is_mat r (kept (u_scheme e) k) D.
Proof. exact ufd_estimate_ok. Qed.
Print Assumptions C42_estimate_matches_mask.

(* C42: the derivatives belong to the times mask(time_domain): exact there for polynomials up to the order. *)
Theorem C42_derivatives_at_masked_times :
  forall (e : ufd) (r k : nat) (t0 dt : R) (Q : mat) (u : option arr) (cs : nat -> list R),
  0 < r -> enough (u_scheme e) k -> aligned k u -> dt <> 0%R ->
  length (u_time e) = k -> 2 <= k -> (forall j, j < k -> vget (u_time e) j = grid t0 dt j) ->
  (forall i, i < r -> length (cs i) <= S (scheme_order (u_scheme e))) -> samples r k (vget (u_time e)) (fun i => peval (cs i)) Q ->
  exists S D U tm, ufd_estimate e (M Q) u = Ok (S, D, U) /\ ufd_mask e (V (u_time e)) = V tm /\ length tm = kept (u_scheme e) k /\
  forall i j, i < r -> j < kept (u_scheme e) k ->
    mget S i j = peval (cs i) (vget tm j) /\ derivable_pt_lim (peval (cs i)) (vget tm j) (mget D i j).
Proof. exact ufd_estimate_exact. Qed.
Print Assumptions C42_derivatives_at_masked_times.

(* C42: too-short data and misaligned inputs raise. *)
Theorem C42_too_short_raises : forall (e : ufd) (r k : nat) (Q : mat) (u : option arr),
  0 < r -> is_mat r k Q -> ~ enough (u_scheme e) k -> aligned k u -> ufd_estimate e (M Q) u = Err ValueError.
Proof. exact ufd_short. Qed.
Print Assumptions C42_too_short_raises.
Theorem C42_misaligned_inputs_raise : forall (e : ufd) (r k m k' : nat) (Q U : mat),
  0 < r -> is_mat r k Q -> 0 < m -> is_mat m k' U -> k' <> k -> ufd_estimate e (M Q) (Some (M U)) = Err DimensionalityError.
Proof. exact ufd_misaligned. Qed.
Print Assumptions C42_misaligned_inputs_raise.

(* C42: exactly uniform time domains are accepted by the constructor. *)
Theorem C42_uniform_times_accepted : forall (t0 dt : R) (t : vec) (s : scheme),
  2 <= length t -> (forall j, j < length t -> vget t j = grid t0 dt j) -> ufd_init (V t) (Some s) = Ok {| u_time := t; u_scheme := s |}.
Proof. exact ufd_init_uniform. Qed.
Print Assumptions C42_uniform_times_accepted.

(* estimate does not compare the number of snapshots with the time domain: with 2 times, 3 snapshots go through *)
Theorem C42_states_aligned_with_time_refuted : exists (e : ufd) (Q : mat) out,
  ufd_init (V [0; 1]%R) (Some Fwd1) = Ok e /\ is_mat 1 3 Q /\ ufd_estimate e (M Q) None = Ok out.
Proof. exact ufd_not_aligned. Qed.
Print Assumptions C42_states_aligned_with_time_refuted.

Example C42_case : enough Ord2 3 /\ aligned 3 (Some (V [1; 2; 3]%R)) /\ (forall j, j < 3 -> vget [0; 1; 2]%R j = grid 0 1 j).
Proof. split; [cbn; lia|]. split; [reflexivity|]. intros [|[|[|j]]] Hj; unfold grid; cbn; try lra. lia. Qed.

(* C43: ddt_uniform of order 2, 4, 6 gives a derivative for every column, exact up to the order including both ends. *)
Theorem C43_ddt_uniform_exact :
  forall (p r k : nat) (t0 dt : R) (cs : nat -> list R) (Q : mat), (p = 2 \/ p = 4 \/ p = 6) -> 0 < r -> dt <> 0%R -> p < k ->
  (forall i, i < r -> length (cs i) <= S p) -> samples r k (grid t0 dt) (fun i => peval (cs i)) Q ->
  exists D, ddt_uniform (M Q) (DtNum dt) p = Ok D /\ is_mat r k D /\
  forall i j, i < r -> j < k -> derivable_pt_lim (peval (cs i)) (grid t0 dt j) (mget D i j).
Proof. exact ddt_uniform_deriv. Qed.
Print Assumptions C43_ddt_uniform_exact.

Theorem C43_ddt_uniform_rejects :
  (forall v dt p, ddt_uniform (V v) dt p = Err DimensionalityError) /\
  (forall Q p, ddt_uniform (M Q) DtOther p = Err TypeError) /\
  (forall Q dt p, p <> 2 -> p <> 4 -> p <> 6 -> ddt_uniform (M Q) (DtNum dt) p = Err NotImplementedError) /\
  (forall p r k Q dt, (p = 2 \/ p = 4 \/ p = 6) -> 0 < r -> is_mat r k Q -> k <= p -> ddt_uniform (M Q) (DtNum dt) p = Err ValueError).
Proof. exact ddt_uniform_rejects. Qed.
Print Assumptions C43_ddt_uniform_rejects.

(* C43: ddt_nonuniform is exact on quadratics for any increasing times. *)
Theorem C43_ddt_nonuniform_exact :
  forall (r k : nat) (t : vec) (cs : nat -> list R) (Q : mat), 0 < r -> 3 <= k -> length t = k ->
  (forall j, S j < k -> (vget t j < vget t (S j))%R) ->
  (forall i, i < r -> length (cs i) <= 3) -> samples r k (vget t) (fun i => peval (cs i)) Q ->
  exists D, ddt_nonuniform (M Q) (V t) = Ok D /\ is_mat r k D /\
  forall i j, i < r -> j < k -> derivable_pt_lim (peval (cs i)) (vget t j) (mget D i j).
Proof. exact ddt_nonuniform_exact. Qed.
Print Assumptions C43_ddt_nonuniform_exact.

(* C43: ddt(states, ...) calls ddt_uniform for a float or dt=, ddt_nonuniform for an array or t=; no other arguments or
   more than two others raise TypeError. *)
Theorem C43_ddt_dispatch : forall (Q : mat) (args : list pyarg) (kwargs : list (kwname * pyarg)),
  (forall x, ddt (M Q) [AFloat x] [] = ddt_uniform (M Q) (DtNum x) 2) /\
  (forall x o, ddt (M Q) [x; o] [] = ddt_uniform (M Q) (as_dt x) (as_order o)) /\
  (forall x o, ddt (M Q) [x] [(Korder, o)] = ddt_uniform (M Q) (as_dt x) (as_order o)) /\
  (forall x, ddt (M Q) [] [(Kdt, x)] = ddt_uniform (M Q) (as_dt x) 2) /\
  (forall x o, ddt (M Q) [] [(Kdt, x); (Korder, o)] = ddt_uniform (M Q) (as_dt x) (as_order o)) /\
  (forall x o, ddt (M Q) [] [(Korder, o); (Kdt, x)] = ddt_uniform (M Q) (as_dt x) (as_order o)) /\
  (forall t, ddt (M Q) [AArray t] [] = ddt_nonuniform (M Q) t) /\
  (forall t, ddt (M Q) [] [(Kt, AArray t)] = ddt_nonuniform (M Q) t) /\
  (length args + length kwargs = 0 \/ 3 <= length args + length kwargs -> ddt (M Q) args kwargs = Err TypeError).
Proof. exact ddt_dispatch. Qed.
Print Assumptions C43_ddt_dispatch.

(* C43: a positional integer step is rejected although ddt_uniform itself takes it. *)
Theorem C43_integer_step_refuted : exists Q D, ddt_uniform (M Q) (DtNum (INR 1)) 2 = Ok D /\ ddt (M Q) [AInt 1] [] = Err TypeError.
Proof. exact ddt_int_step. Qed.
Print Assumptions C43_integer_step_refuted.

Example C43_case : samples 1 3 (grid 0 1) (fun _ => peval [0; 0; 1]%R) [[0; 1; 4]]%R.
Proof. exact samples_case2. Qed.

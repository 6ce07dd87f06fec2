(* Prop_Basis.v -- properties C09 to C16. *)
From Coq Require Import ZArith Lia Lra List.
From Verif Require Import LinAlg MatAlg BasisProofs BasisMultiProofs PodRank PodFinal PodHist PodError PodSnap PodFn BasisNames SpecBasis.
#[local] Open Scope nat_scope.

(* C09: compress(decompress(q)) = q for a basis that is orthonormal in its weights. *)
Theorem C09_compress_decompress :
  forall n r k W A b q,
  basis_of n r W A b -> w_orthonormal n r W A -> shaped r k q ->
  exists x, b_decompress b q None = Ok x /\ shaped n k x /\ b_compress b x = Ok q.
Proof. exact C09_round. Qed.
Print Assumptions C09_compress_decompress.

(* C09: project(project(Q)) = project(Q). *)
Theorem C09_projection_idempotent :
  forall n r k W A b a,
  basis_of n r W A b -> w_orthonormal n r W A -> shaped n k a ->
  exists p, b_project b a = Ok p /\ shaped n k p /\ b_project b p = Ok p.
Proof. exact C09_idem. Qed.
Print Assumptions C09_projection_idempotent.

(* C09: project is linear. *)
Theorem C09_projection_linear :
  forall n r k W A b a d h,
  basis_of n r W A b -> shaped n k a -> shaped n k d -> same_kind a d ->
  exists pa pd, b_project b a = Ok pa /\ b_project b d = Ok pd /\ b_project b (acomb a h d) = Ok (acomb pa h pd).
Proof. exact C09_lin. Qed.
Print Assumptions C09_projection_linear.

(* C09: check_orthogonality warns exactly when an entry of V'WV differs from the identity by more than 1e-8 + 1e-5 |I_ab|. *)
Theorem C09_orthogonality_check :
  forall n r W A,
  0 < n -> 0 < r -> is_mat n r A -> ok_weight n W ->
  exists w, not_orthogonal A W = Ok w /\
  (w = false <-> forall a b, a < r -> b < r -> let t := if a =? b then 1%R else 0%R in
                 (Rabs (wip n W (fun i => mget A i a) (fun i => mget A i b) - t) <= / 10 ^ 8 + / 10 ^ 5 * t)%R).
Proof. exact not_orthogonal_iff. Qed.
Print Assumptions C09_orthogonality_check.

(* C09: so it does not warn for an orthonormal basis. *)
Theorem C09_no_warning_if_orthonormal :
  forall n r W A,
  0 < n -> 0 < r -> is_mat n r A -> ok_weight n W -> w_orthonormal n r W A -> not_orthogonal A W = Ok false.
Proof. exact C09_no_warning. Qed.
Print Assumptions C09_no_warning_if_orthonormal.

(* C10: Q - project(Q) is orthogonal to the basis in the weighted inner product. *)
Theorem C10_residual_orthogonal :
  forall n r k W A b a,
  basis_of n r W A b -> w_orthonormal n r W A -> shaped n k a ->
  exists p, b_project b a = Ok p /\ shaped n k p /\
  forall c j, c < r -> j < k -> wip n W (fun i => mget A i c) (fun i => aget a i j - aget p i j)%R = 0%R.
Proof. exact C10_orth. Qed.
Print Assumptions C10_residual_orthogonal.

(* C10: project(Q) lies in the range of the basis and nothing else in the range is closer. *)
Theorem C10_best_approximation :
  forall n r k W A b a,
  basis_of n r W A b -> w_orthonormal n r W A -> w_symmetric n W -> w_nonneg n W -> shaped n k a ->
  exists p, b_project b a = Ok p /\ shaped n k p /\ (exists y, forall i j, i < n -> j < k -> aget p i j = span r A (y j) i) /\
  forall j y, j < k ->
    (wip n W (fun i => aget a i j - aget p i j) (fun i => aget a i j - aget p i j)
     <= wip n W (fun i => aget a i j - span r A y i) (fun i => aget a i j - span r A y i))%R.
Proof. exact C10_best. Qed.
Print Assumptions C10_best_approximation.

(* C10: projection_error is zero exactly on the range of the basis. *)
Theorem C10_error_zero_iff :
  forall n r k W A b a,
  basis_of n r W A b -> w_orthonormal n r W A -> shaped n k a ->
  exists e, b_error b a false = Ok e /\ (0 <= e)%R /\ (e = 0%R <-> exists y, forall i j, i < n -> j < k -> aget a i j = span r A (y j) i).
Proof. exact C10_zero. Qed.
Print Assumptions C10_error_zero_iff.

(* C10: without weights projection_error is the distance to the range, over all competitors. *)
Theorem C10_error_is_the_minimum :
  forall n r k A b a,
  basis_of n r None A b -> w_orthonormal n r None A -> shaped n k a ->
  exists e, b_error b a false = Ok e /\ forall y : nat -> nat -> R,
    (e <= sqrt (bsum n (fun i => bsum k (fun j => Rsqr (aget a i j - span r A (y j) i)))))%R.
Proof. exact C10_error_min. Qed.
Print Assumptions C10_error_is_the_minimum.

(* C11: decompress(q, locs) = decompress(q)[locs]. *)
Theorem C11_linear_and_pod :
  forall n r k W A b q l idx,
  basis_of n r W A b -> shaped r k q -> selects n l idx ->
  exists x, b_decompress b q None = Ok x /\ alen x = n /\ b_decompress b q (Some l) = Ok (asel idx x).
Proof. exact C11_linear. Qed.
Print Assumptions C11_linear_and_pod.

(* C11: a location out of range raises IndexError. *)
Theorem C11_bad_location :
  forall n r W A b q zs,
  basis_of n r W A b -> (exists z, In z zs /\ (z < - Z.of_nat n \/ Z.of_nat n <= z)%Z) ->
  b_decompress b q (Some (LIdx zs)) = Err IndexError.
Proof. exact C11_bad. Qed.
Print Assumptions C11_bad_location.

(* C11: BasisMulti.decompress(q, locs): the locations are taken in each variable. *)
Theorem C11_multi_variable :
  forall n rs bs k q l idx,
  members (repeat n (length bs)) rs bs -> bs <> [] -> Forall (fun r => r <= n) rs -> shaped (lsumn rs) k q -> selects n l idx ->
  exists x y, bm_decompress bs q None = Ok x /\ bm_decompress bs q (Some l) = Ok y /\ alen x = length bs * n /\ alen y = length bs * length idx /\
  forall i, i < length bs -> var_rows (repeat (length idx) (length bs)) i y = asel idx (var_rows (repeat n (length bs)) i x).
Proof. exact C11_multi. Qed.
Print Assumptions C11_multi_variable.

(* C11: with variables of different sizes locs is refused. *)
Theorem C11_multi_different_sizes :
  forall ns rs bs q l,
  members ns rs bs -> alen q = lsumn rs -> (exists x y, In x ns /\ In y ns /\ x <> y) -> bm_decompress bs q (Some l) = Err ValueError.
Proof. exact C11_multi_sizes. Qed.
Print Assumptions C11_multi_different_sizes.

(* C12: block i of compress(Q) is the compression of block i of Q by basis i. *)
Theorem C12_compress :
  forall ns rs bs k a,
  members ns rs bs -> bs <> [] -> shaped (lsumn ns) k a ->
  exists q, bm_compress bs a = Ok q /\ shaped (lsumn rs) k q /\ same_kind a q /\
  forall i b, nth_error bs i = Some b -> b_compress b (var_rows ns i a) = Ok (var_rows rs i q).
Proof. exact C12_comp. Qed.
Print Assumptions C12_compress.

(* C12: block i of decompress(q) is the decompression of block i of q by basis i (no basis wider than tall). *)
Theorem C12_decompress :
  forall ns rs bs k q,
  members ns rs bs -> bs <> [] -> Forall2 le rs ns -> shaped (lsumn rs) k q ->
  exists x, bm_decompress bs q None = Ok x /\ shaped (lsumn ns) k x /\ same_kind q x /\
  forall i b, nth_error bs i = Some b -> b_decompress b (var_rows rs i q) None = Ok (var_rows ns i x).
Proof. exact C12_decomp. Qed.
Print Assumptions C12_decompress.

(* C12: orthonormal members make compress(decompress(q)) = q. *)
Theorem C12_round_trip :
  forall ns rs bs k q,
  members ns rs bs -> bs <> [] -> Forall orthonormal bs -> shaped (lsumn rs) k q ->
  exists x, bm_decompress bs q None = Ok x /\ shaped (lsumn ns) k x /\ bm_compress bs x = Ok q.
Proof. exact C12_round. Qed.
Print Assumptions C12_round_trip.

(* C12: project acts block by block. *)
Theorem C12_projection :
  forall ns rs bs k a,
  members ns rs bs -> bs <> [] -> Forall2 le rs ns -> shaped (lsumn ns) k a ->
  exists p, project bm_compress bm_decompress bs a = Ok p /\ shaped (lsumn ns) k p /\
  forall i b, nth_error bs i = Some b -> b_project b (var_rows ns i a) = Ok (var_rows ns i p).
Proof. exact C12_project. Qed.
Print Assumptions C12_projection.

(* C12: wrong sizes raise DimensionalityError. *)
Theorem C12_wrong_sizes :
  forall ns rs bs,
  members ns rs bs ->
  (forall a, alen a <> lsumn ns -> bm_compress bs a = Err DimensionalityError) /\
  (forall q l, alen q <> lsumn rs -> bm_decompress bs q l = Err DimensionalityError) /\
  (forall a, alen a <> lsumn ns -> alen a <> lsumn rs -> bsplit bs a = Err DimensionalityError /\ forall v, bget_var bs v a = Err DimensionalityError).
Proof. exact C12_wrong. Qed.
Print Assumptions C12_wrong_sizes.

(* C12: split() cuts the state or the reduced state into the rows of each variable; joining them gives it back. *)
Theorem C12_split :
  forall ns rs bs k a,
  members ns rs bs -> bs <> [] -> Forall2 le rs ns -> 
  (shaped (lsumn ns) k a -> exists qs, bsplit bs a = Ok qs /\ aconcat qs = Ok a /\ length qs = length bs /\ forall i, i < length bs -> nth i qs (V []) = var_rows ns i a) /\
  (shaped (lsumn rs) k a -> exists qs, bsplit bs a = Ok qs /\ aconcat qs = Ok a /\ length qs = length bs /\ forall i, i < length bs -> nth i qs (V []) = var_rows rs i a).
Proof. exact C12_split_full. Qed.
Print Assumptions C12_split.

(* C12: get_var(i) is block i. *)
Theorem C12_get_variable :
  forall ns rs bs a i,
  members ns rs bs -> i < length bs ->
  (alen a = lsumn ns -> bget_var bs (VIdx (Z.of_nat i)) a = Ok (var_rows ns i a)) /\
  (alen a = lsumn rs -> Forall2 le rs ns -> bget_var bs (VIdx (Z.of_nat i)) a = Ok (var_rows rs i a)).
Proof. exact C12_get_var. Qed.
Print Assumptions C12_get_variable.

(* C12: get_var(name) is the block of the first variable with that name. *)
Theorem C12_get_variable_by_name :
  forall ns rs bs a i s b,
  members ns rs bs -> nth_error bs i = Some b -> b_name b = Some s -> (forall j b', j < i -> nth_error bs j = Some b' -> b_name b' <> Some s) ->
  (alen a = lsumn ns -> bget_var bs (VName s) a = Ok (var_rows ns i a)) /\
  (alen a = lsumn rs -> Forall2 le rs ns -> bget_var bs (VName s) a = Ok (var_rows rs i a)).
Proof. exact get_named. Qed.
Print Assumptions C12_get_variable_by_name.

(* C12: the constructor keeps the bases in order, names the unnamed ones "variable i", sets the given sizes and changes nothing else; it raises ValueError exactly if there is no basis or the number of sizes is wrong. *)
Theorem C12_constructor :
  forall bs sizes,
  match mk_bmulti bs sizes with
  | Ok bs' => bs <> [] /\ length bs' = length bs /\ (forall ns, sizes = Some ns -> length ns = length bs) /\
      forall i b, nth_error bs i = Some b -> exists b', nth_error bs' i = Some b' /\
        b_name b' = Some (match b_name b with Some s => s | None => variable_name i end) /\ b_n b' = (match sizes with Some ns => nth_error ns i | None => b_n b end) /\
        b_r b' = b_r b /\ b_entries b' = b_entries b /\ b_weights b' = b_weights b
  | Err e => e = ValueError /\ (bs = [] \/ exists ns, sizes = Some ns /\ length ns <> length bs)
  end.
Proof. exact new_multi. Qed.
Print Assumptions C12_constructor.

(* C12: compress() before the sizes are known raises AttributeError. *)
Theorem C12_not_trained :
  forall bs,
  full_sizes bs = None -> (forall a, bm_compress bs a = Err AttributeError).
Proof. exact C12_nofit. Qed.
Print Assumptions C12_not_trained.

(* C12: so does decompress(). *)
Theorem C12_not_trained_reduced :
  forall bs,
  red_sizes bs = None -> (forall q l, bm_decompress bs q l = Err AttributeError).
Proof. exact C12_nofit_red. Qed.
Print Assumptions C12_not_trained_reduced.

(* C12: fit() trains basis i on block i; without known sizes the rows are divided evenly, or DimensionalityError. *)
Theorem C12_fit_each_variable :
  forall X bs a bs',
  bs <> [] ->
  (forall ns, full_sizes bs = Some ns -> alen a = lsumn ns -> bm_fit X bs a = Ok bs' ->
    length bs' = length bs /\ forall i b, nth_error bs i = Some b -> exists b', nth_error bs' i = Some b' /\ b_fit X b (var_rows ns i a) = Ok b') /\
  (forall ns, full_sizes bs = Some ns -> alen a <> lsumn ns -> bm_fit X bs a = Err DimensionalityError) /\
  (forall m, full_sizes bs = None -> alen a = length bs * m -> bm_fit X bs a = Ok bs' ->
    length bs' = length bs /\ forall i b, nth_error bs i = Some b -> exists b', nth_error bs' i = Some b' /\ b_fit X (b_set_n m b) (var_rows (repeat m (length bs)) i a) = Ok b') /\
  (full_sizes bs = None -> (forall m, alen a <> length bs * m) -> bm_fit X bs a = Err DimensionalityError).
Proof. exact C12_fit. Qed.
Print Assumptions C12_fit_each_variable.

(* C12, false of the code when a basis is wider than tall and the totals agree: the reduced state is split as a full one. *)
Theorem C12_wide_basis_refuted :
  exists ns rs bs q, members ns rs bs /\ bs <> [] /\ shaped (lsumn rs) 1 q /\
  (forall i b, nth_error bs i = Some b -> exists x, b_decompress b (var_rows rs i q) None = Ok x) /\ bm_decompress bs q None = Err ValueError.
Proof. exact C12_wide_refuted. Qed.
Print Assumptions C12_wide_basis_refuted.

(* C13: num_vectors=r keeps r vectors, or all of them. *)
Theorem C13_num_vectors :
  forall X z q s n m,
  dimensioned X (CNum z) q -> stores q s n m -> (0 <= z)%Z -> keeps q (Nat.min (Z.to_nat z) m).
Proof. exact C13_num. Qed.
Print Assumptions C13_num_vectors.

(* C13: cumulative_energy=k keeps the fewest vectors (at least one, at most all) whose cumulative energy reaches k. *)
Theorem C13_cumulative_energy :
  forall X k q s n m,
  dimensioned X (CCum k) q -> stores q s n m -> 1 <= m <= length s ->
  exists r, keeps q r /\ least_upto m (fun j => (k <= kept s j)%R) r.
Proof. exact C13_cum. Qed.
Print Assumptions C13_cumulative_energy.

(* C13: residual_energy=e keeps the fewest vectors whose residual energy is below e (strictly). *)
Theorem C13_residual_energy :
  forall X e q s n m,
  dimensioned X (CRes e) q -> stores q s n m -> 1 <= m <= length s ->
  exists r, keeps q r /\ least_upto m (fun j => (lost s j < e)%R) r.
Proof. exact C13_res. Qed.
Print Assumptions C13_residual_energy.

(* C13: projection_error=e keeps the fewest vectors whose projection error is below e (strictly). *)
Theorem C13_projection_error :
  forall X e q s n m,
  dimensioned X (CProj e) q -> stores q s n m -> 1 <= m <= length s ->
  exists r, keeps q r /\ least_upto m (fun j => (sqrt (lost s j) < e)%R) r.
Proof. exact C13_proj. Qed.
Print Assumptions C13_projection_error.

(* C13: svdval_threshold=e keeps the vectors whose normalized singular values are at least e. *)
Theorem C13_svdval_threshold :
  forall X e q s n m,
  dimensioned X (CSval e) q -> stores q s n m -> decreasing s -> m <= length s ->
  exists r, keeps q r /\ forall i, i < m -> ((e <= vget s i)%R <-> i < r).
Proof. exact C13_sval. Qed.
Print Assumptions C13_svdval_threshold.

(* C13: the documented "at most e" holds unless some residual energy equals e. *)
Theorem C13_residual_energy_documented :
  forall X e q s n m,
  dimensioned X (CRes e) q -> stores q s n m -> 1 <= m <= length s -> (forall j, lost s j <> e) ->
  exists r, keeps q r /\ least_upto m (fun j => (lost s j <= e)%R) r.
Proof. exact C13_res_doc. Qed.
Print Assumptions C13_residual_energy_documented.

(* C13: the same for projection_error. *)
Theorem C13_projection_error_documented :
  forall X e q s n m,
  dimensioned X (CProj e) q -> stores q s n m -> 1 <= m <= length s -> (forall j, sqrt (lost s j) <> e) ->
  exists r, keeps q r /\ least_upto m (fun j => (sqrt (lost s j) <= e)%R) r.
Proof. exact C13_proj_doc. Qed.
Print Assumptions C13_projection_error_documented.

(* C13: svdval_decay() counts the normalized singular values above the threshold. *)
Theorem C13_svdval_decay_function :
  forall s t r,
  svdval_decay s t = Ok (Some r) -> (forall x, In x s -> (0 <= x)%R) ->
  exists s', normalized s = Ok s' /\ decreasing s' /\ forall i, i < length s -> ((t < vget s' i)%R <-> i < r).
Proof. exact C13_decay. Qed.
Print Assumptions C13_svdval_decay_function.

(* C13: cumulative_energy() returns the smallest r whose cumulative energy reaches the threshold. *)
Theorem C13_cumulative_energy_function :
  forall s t r,
  cumulative_energy s t = Ok (Some r) -> (t <= 1)%R -> least (fun j => (t <= kept (sort_desc s) j)%R) r /\ r <= length s.
Proof. exact C13_cum_fn. Qed.
Print Assumptions C13_cumulative_energy_function.

(* C13: residual_energy() returns the smallest r whose residual energy is at most the threshold. *)
Theorem C13_residual_energy_function :
  forall s t r,
  residual_energy s t false = Ok (Some r) -> (0 <= t)%R -> least (fun j => (lost (sort_desc s) j <= t)%R) r /\ r <= length s.
Proof. exact C13_res_fn. Qed.
Print Assumptions C13_residual_energy_function.

(* C13: the same with the square root. *)
Theorem C13_projection_error_function :
  forall s t r,
  residual_energy s t true = Ok (Some r) -> (0 <= t)%R -> least (fun j => (sqrt (lost (sort_desc s) j) <= t)%R) r /\ r <= length s.
Proof. exact C13_proj_fn. Qed.
Print Assumptions C13_projection_error_function.

(* C13: class and function agree: cumulative energy. *)
Theorem C13_class_and_function_cumulative :
  forall X k q s n r,
  dimensioned X (CCum k) q -> stores q s n (length s) -> decreasing s -> (0 < k <= 1)%R ->
  cumulative_energy s k = Ok (Some r) -> keeps q r.
Proof. exact C13_agree_cum. Qed.
Print Assumptions C13_class_and_function_cumulative.

(* C13: residual energy, unless the threshold is hit exactly. *)
Theorem C13_class_and_function_residual :
  forall X e q s n r,
  dimensioned X (CRes e) q -> stores q s n (length s) -> decreasing s -> (0 < e < 1)%R -> (forall j, lost s j <> e) ->
  residual_energy s e false = Ok (Some r) -> keeps q r.
Proof. exact C13_agree_res. Qed.
Print Assumptions C13_class_and_function_residual.

(* C13: projection error, unless the threshold is hit exactly. *)
Theorem C13_class_and_function_projection :
  forall X e q s n r,
  dimensioned X (CProj e) q -> stores q s n (length s) -> decreasing s -> (0 < e < 1)%R -> (forall j, sqrt (lost s j) <> e) ->
  residual_energy s e true = Ok (Some r) -> keeps q r.
Proof. exact C13_agree_proj. Qed.
Print Assumptions C13_class_and_function_projection.

(* C13: singular values, unless the threshold is hit exactly. *)
Theorem C13_class_and_function_svdval :
  forall X e q s n r,
  dimensioned X (CSval e) q -> stores q s n (length s) -> decreasing s -> (forall x, In x s -> (0 <= x)%R /\ x <> e) -> vget s 0 = 1%R ->
  svdval_decay s e = Ok (Some r) -> keeps q r.
Proof. exact C13_agree_sval. Qed.
Print Assumptions C13_class_and_function_svdval.

(* C13, false of the code when the threshold is hit exactly: the class keeps one vector more than documented and than the function. *)
Theorem C13_exact_threshold_refuted :
  exists X q, dimensioned X (CRes (1 / 5)) q /\ stores q s2 2 2 /\ keeps q 2 /\ (lost s2 1 <= 1 / 5)%R /\ residual_energy s2 (1 / 5) false = Ok (Some 1).
Proof. exact C13_res_exact_refuted. Qed.
Print Assumptions C13_exact_threshold_refuted.

(* C13: pod_basis() returns the entries and singular values of a PODBasis fitted with the same arguments (all vectors if no criterion is given), and as many right singular vectors as there are basis vectors, in the same order. *)
Theorem C13_pod_basis_function :
  forall X Q n k a sv W E s Rt,
  is_mat n k Q -> 0 < n -> 0 < k -> nonneg_args a ->
  (forall p L s0 Vt, pod_init X (match pick a with Ok _ => a | Err _ => by_num (Z.of_nat (Nat.min n k)) end) None sv W None = Ok p -> pod_svd X p (Nat.min n k) Q = Ok (L, s0, Vt) -> is_mat n (Nat.min n k) L /\ is_mat (Nat.min n k) k Vt) ->
  pod_basis X Q a sv W = Ok (E, s, Rt) ->
  exists p q L s0 Vt r,
  pod_init X (match pick a with Ok _ => a | Err _ => by_num (Z.of_nat (Nat.min n k)) end) None sv W None = Ok p /\ pod_fit X (S2 Q) p = (q, None) /\
  pod_svd X p (Nat.min n k) Q = Ok (L, s0, Vt) /\ keeps q r /\ r <= Nat.min n k /\ ((forall c, pick a <> Ok c) -> r = Nat.min n k) /\
  p_entries q = Some E /\ p_svals q = Some s /\ normalized s0 = Ok s /\ is_mat n r E /\ is_mat k r Rt /\
  forall c, c < r -> (forall i, i < n -> mget E i c = mget L i c) /\ (forall j, j < k -> mget Rt j c = mget Vt c j).
Proof. exact pod_function. Qed.
Print Assumptions C13_pod_basis_function.

(* C13, false of the code: a threshold above one leaves a basis with no vectors. *)
Theorem C13_no_vectors_refuted :
  exists X q, dimensioned X (CSval 2) q /\ stores q s2 2 2 /\ keeps q 0.
Proof. exact C13_sval_empty_refuted. Qed.
Print Assumptions C13_no_vectors_refuted.

(* C14: set_dimension() and assigning reduced_state_dimension leave the stored decomposition alone, also when they raise. *)
Theorem C14_singular_values_fixed :
  forall X o p q e,
  is_fit o = false -> pod_step X o p = (q, e) -> p_svals q = p_svals p /\ p_left q = p_left p /\ p_right q = p_right p.
Proof. exact C14_svd_fixed. Qed.
Print Assumptions C14_singular_values_fixed.

(* C14: set_dimension() without exactly one criterion changes nothing. *)
Theorem C14_refused_request :
  forall X p,
  set_dimension {| a_num := None; a_sval := None; a_cum := None; a_res := None; a_proj := None |} p = (p, Some ValueError) /\
  forall a, pick a = Err ValueError -> pod_step X (ODim a) p = (p, Some ValueError).
Proof. exact C14_no_argument. Qed.
Print Assumptions C14_refused_request.

(* C14: after any history with a fit, the entries are the first r stored vectors, r at most max_num_modes, and the energies
   reported are those of r vectors. *)
Theorem C14_prefix_of_stored_vectors :
  forall X a mx sv W nm p0 os q,
  pod_init X a mx sv W nm = Ok p0 -> rectangular X p0 -> nonneg_args a -> Forall proper_op os -> existsb is_fit os = true -> pod_run X os p0 = Some q ->
  exists s n m r, stores q s n m /\ vget s 0 = 1%R /\ keeps q r /\ r <= m /\ (forall k, mx = Some k -> (Z.of_nat m <= k)%Z) /\
                  p_cum q = Some (kept s r) /\ p_res q = Some (1 - kept s r)%R.
Proof. exact C14_prefix. Qed.
Print Assumptions C14_prefix_of_stored_vectors.

(* C14: before any fit there are no entries, whatever was set. *)
Theorem C14_before_fit :
  forall X a mx sv W nm p0 os q,
  pod_init X a mx sv W nm = Ok p0 -> existsb is_fit os = false -> pod_run X os p0 = Some q ->
  p_entries q = None /\ p_svals q = None /\ p_cum q = None /\ p_res q = None.
Proof. exact C14_unfitted. Qed.
Print Assumptions C14_before_fit.

(* C14: two histories with the same last fit and the same last dimension request after it end in the same basis. *)
Theorem C14_depends_on_last_request :
  forall X st g1 g2 h1 h2 o p0 q1 q2,
  existsb is_fit g1 = false -> existsb is_fit g2 = false -> is_fit o = false ->
  pod_run X (h1 ++ [OFit st] ++ g1 ++ [o]) p0 = Some q1 -> pod_run X (h2 ++ [OFit st] ++ g2 ++ [o]) p0 = Some q2 -> same_but_crit q1 q2.
Proof. exact C14_last. Qed.
Print Assumptions C14_depends_on_last_request.

(* C14: two histories with the same last set_dimension() before the same last fit end in the same object. *)
Theorem C14_depends_on_last_fit :
  forall X st a f1 f2 h1 h2 p0 q1 q2,
  forallb is_fit f1 = true -> forallb is_fit f2 = true ->
  pod_run X (h1 ++ [ODim a] ++ f1 ++ [OFit st]) p0 = Some q1 -> pod_run X (h2 ++ [ODim a] ++ f2 ++ [OFit st]) p0 = Some q2 -> q1 = q2.
Proof. exact C14_last_fit. Qed.
Print Assumptions C14_depends_on_last_fit.

(* C14, false of the code: an assigned reduced_state_dimension is forgotten by the next fit. *)
Theorem C14_assignment_is_forgotten_refuted :
  exists X p0 st q1 q2, pod_init X (by_num 2) None (SCustom svd2) None None = Ok p0 /\
  pod_run X [OFit st; OSetR 1] p0 = Some q1 /\ keeps q1 1 /\ pod_run X [OFit st; OSetR 1; OFit st] p0 = Some q2 /\ keeps q2 2.
Proof. exact C14_assignment_forgotten_refuted. Qed.
Print Assumptions C14_assignment_is_forgotten_refuted.

(* C14, false of the code: a fit that raises can leave entries that are no prefix of the stored vectors. *)
Theorem C14_failed_fit_keeps_old_entries_refuted :
  exists X sv p0 st st' p1 q, pod_init X (by_num 2) None sv None None = Ok p0 /\
  pod_run X [OFit st] p0 = Some p1 /\ keeps p1 2 /\ pod_step X (OFit st') p1 = (q, Some IndexError) /\ p_entries q = p_entries p1 /\ ~ exists r, keeps q r.
Proof. exact C14_failed_fit_refuted. Qed.
Print Assumptions C14_failed_fit_keeps_old_entries_refuted.

(* C14, false of the code: a negative dimension reports energies that are not those of the entries. *)
Theorem C14_negative_dimension_refuted :
  exists X sv p0 st q s L, pod_init X (by_num 2) (Some 2%Z) sv None None = Ok p0 /\ pod_run X [OFit st; OSetR (-1)] p0 = Some q /\
  p_svals q = Some s /\ p_left q = Some L /\ p_entries q = Some (map (firstn 1) L) /\ p_cum q = Some (kept s 2) /\ (kept s 1 < kept s 2)%R.
Proof. exact C14_negative_refuted. Qed.
Print Assumptions C14_negative_dimension_refuted.

(* C15: after any history, for the snapshots of the last fit, the squared weighted size of Q - project(Q) is the residual
   energy times the squared size of Q; the reported residual energy is that number. *)
Theorem C15_residual_energy :
  forall X a mx sv W nm p0 h st g q Q n k,
  pod_init X a mx sv W nm = Ok p0 -> exact_solver X sv -> spd_weight X W -> nonneg_args a ->
  Forall proper_op (h ++ [OFit st] ++ g) -> existsb is_fit g = false -> pod_run X (h ++ [OFit st] ++ g) p0 = Some q -> snap_mat st = Ok Q -> is_mat n k Q -> 0 < n -> 0 < k ->
  exists r s, keeps q r /\ p_svals q = Some s /\ p_res q = Some (lost s r) /\ (0 < r ->
    (exists A, basis_of n r W A (BPod q) /\ w_orthonormal n r W A) /\
    (exists P, b_project (BPod q) (M Q) = Ok (M P) /\ is_mat n k P /\ wnorm2 n k W (msub Q P) = (lost s r * wnorm2 n k W Q)%R)).
Proof. exact C15_energy. Qed.
Print Assumptions C15_residual_energy.

(* C15: without weights projection_error(Q) is the root of the residual energy. *)
Theorem C15_projection_error :
  forall X a mx sv nm p0 h st g q Q n k,
  pod_init X a mx sv None nm = Ok p0 -> exact_solver X sv -> nonneg_args a ->
  Forall proper_op (h ++ [OFit st] ++ g) -> existsb is_fit g = false -> pod_run X (h ++ [OFit st] ++ g) p0 = Some q -> snap_mat st = Ok Q -> is_mat n k Q -> 0 < n -> 0 < k ->
  exists r s, keeps q r /\ p_svals q = Some s /\ p_res q = Some (lost s r) /\ (0 < r -> b_error (BPod q) (M Q) true = Ok (sqrt (lost s r))).
Proof. exact C15_error. Qed.
Print Assumptions C15_projection_error.

(* C15, false of the code with weights: projection_error() uses the unweighted norm. *)
Theorem C15_weighted_error_refuted :
  exists X a sv W p0 Q q e s, pod_init X a None sv W None = Ok p0 /\ exact_solver X sv /\ spd_weight X W /\ pod_run X [OFit (S2 Q)] p0 = Some q /\
  p_svals q = Some s /\ p_res q = Some (lost s 1) /\ keeps q 1 /\ b_error (BPod q) (M Q) true = Ok e /\ (lost s 1 < Rsqr e)%R.
Proof. exact C15_weighted_refuted. Qed.
Print Assumptions C15_weighted_error_refuted.

(* C16: weight-orthonormal left vectors, orthonormal right vectors, decreasing positive singular values, s^2 = k lambda;
   a mode is kept when its eigenvalue exceeds minthresh and the size of the smallest eigenvalue; the misfit of the
   reconstruction is k times the sum of the dropped eigenvalues. *)
Theorem C16_orthonormal_vectors :
  forall X th W Q n k L s Rt,
  eigh_spec (x_eigh X) -> is_mat n k Q -> 0 < n -> 0 < k -> ok_weight n W -> w_symmetric n W ->
  method_of_snapshots X th W Q = Ok (L, s, Rt) ->
  exists lam m, gram_eigs n k W Q lam /\ (forall a, a < k -> (a < m <-> (Rmax th (Rabs (vget lam (k - 1))) < vget lam a)%R)) /\ m <= k /\
    is_mat n m L /\ is_vec m s /\ is_mat m k Rt /\ w_orthonormal n m W L /\
    (forall i j, i < m -> j < m -> bsum k (fun l => mget Rt i l * mget Rt j l)%R = if i =? j then 1%R else 0%R) /\
    (forall a, a < m -> (0 < vget s a)%R /\ Rsqr (vget s a) = (INR k * vget lam a)%R) /\ decreasing s /\
    (forall t a, t < n -> a < m -> (vget s a * mget L t a)%R = bsum k (fun l => mget Q t l * mget Rt a l)%R) /\
    resid2 n k W Q L s Rt = (INR k * bsum (k - m) (fun a => vget lam (m + a)))%R.
Proof. exact C16_snapshots. Qed.
Print Assumptions C16_orthonormal_vectors.

(* C16: if only zero eigenvalues are dropped the factors reconstruct the snapshots. *)
Theorem C16_reconstruction :
  forall X th W Q n k L s Rt,
  eigh_spec (x_eigh X) -> is_mat n k Q -> 0 < n -> 0 < k -> ok_weight n W -> w_symmetric n W -> w_nonneg n W -> w_definite n W ->
  method_of_snapshots X th W Q = Ok (L, s, Rt) ->
  (forall lam, gram_eigs n k W Q lam -> forall a, a < k -> (vget lam a <= Rmax th (Rabs (vget lam (k - 1))))%R -> vget lam a = 0%R) ->
  wsvd n k (length s) W Q L s Rt.
Proof. exact C16_exact. Qed.
Print Assumptions C16_reconstruction.

(* C16, false of the code: if all eigenvalues are positive the smallest mode is always dropped and the snapshots are
   not reconstructed. *)
Theorem C16_positive_definite_refuted :
  forall X th W Q n k L s Rt,
  eigh_spec (x_eigh X) -> is_mat n k Q -> 0 < n -> 0 < k -> ok_weight n W -> w_symmetric n W -> w_nonneg n W ->
  method_of_snapshots X th W Q = Ok (L, s, Rt) -> (forall lam, gram_eigs n k W Q lam -> forall a, a < k -> (0 < vget lam a)%R) ->
  length s < k /\ ~ (forall t l, t < n -> l < k -> mget Q t l = bsum (length s) (fun i => vget s i * (mget L t i * mget Rt i l))%R).
Proof. exact C16_positive_refuted. Qed.
Print Assumptions C16_positive_definite_refuted.

(* C16: so one snapshot gives no vectors ... *)
Theorem C16_single_snapshot :
  forall X th W Q n L s Rt,
  eigh_spec (x_eigh X) -> is_mat n 1 Q -> 0 < n -> ok_weight n W -> w_symmetric n W -> 
  method_of_snapshots X th W Q = Ok (L, s, Rt) -> s = [].
Proof. exact C16_one_snapshot. Qed.
Print Assumptions C16_single_snapshot.

(* C16: ... and fit() raises IndexError. *)
Theorem C16_single_snapshot_fit :
  forall X a mx th W nm p0 Q n,
  pod_init X a mx (SSnap th) W nm = Ok p0 -> eigh_spec (x_eigh X) -> is_mat n 1 Q -> 0 < n -> ok_weight n W -> w_symmetric n W ->
  (exists t, method_of_snapshots X th W Q = Ok t) -> exists q, pod_fit X (S2 Q) p0 = (q, Some IndexError).
Proof. exact C16_one_snapshot_fit. Qed.
Print Assumptions C16_single_snapshot_fit.

(* ---- the hypotheses are met ---- *)
Definition wb : weight := WDiag [4; 1]%R.
Definition ex_basis : basis := BLin {| lb_entries := [[1 / 2]; [0]]%R; lb_weights := Some wb; lb_n := Some 2; lb_r := 1; lb_name := None |}.
Definition ex_basis1 : basis := BLin {| lb_entries := [[1]]%R; lb_weights := None; lb_n := Some 1; lb_r := 1; lb_name := None |}.
Lemma ex_wip x y : wip 2 (Some wb) x y = (4 * (x 0%nat * y 0%nat) + x 1%nat * y 1%nat)%R.
Proof. unfold wip. cbn. ring. Qed.
Lemma ex_basis_of : basis_of 2 1 (Some wb) [[1 / 2]; [0]]%R ex_basis.
Proof. split; [lia|]. split; [lia|]. split; [split; repeat constructor|]. split; [reflexivity|]. split; reflexivity. Qed.
Lemma ex_orthonormal : w_orthonormal 2 1 (Some wb) [[1 / 2]; [0]]%R.
Proof. intros [|a] [|b] Ha Hb; try lia. rewrite ex_wip. cbn. field. Qed.
Example C09_example : basis_of 2 1 (Some wb) [[1 / 2]; [0]]%R ex_basis /\ w_orthonormal 2 1 (Some wb) [[1 / 2]; [0]]%R /\
  shaped 1 3 (M [[1; 2; 3]]%R) /\ shaped 2 1 (V [5; 6]%R).
Proof. split; [apply ex_basis_of|]. split; [apply ex_orthonormal|]. split; [split; repeat constructor|]. split; reflexivity. Qed.
Example C10_example : w_symmetric 2 (Some wb) /\ w_nonneg 2 (Some wb) /\ w_definite 2 (Some wb) /\ selects 2 (LIdx [-1; 0; 1]%Z) [1; 0; 1].
Proof.
  split. { intros [|[|i]] [|[|j]] Hi Hj; try lia; reflexivity. }
  split. { intros x. rewrite ex_wip. pose proof (Rle_0_sqr (x 0)). pose proof (Rle_0_sqr (x 1)). unfold Rsqr in *. lra. }
  split. { intros x. rewrite ex_wip. intros E i Hi. pose proof (Rle_0_sqr (x 0)). pose proof (Rle_0_sqr (x 1)). unfold Rsqr in *.
    assert (x 0%nat * x 0%nat = 0)%R by lra. assert (x 1%nat * x 1%nat = 0)%R by lra. destruct i as [|[|i]]; [now apply Rsqr_0_uniq|now apply Rsqr_0_uniq|lia]. }
  cbn. repeat constructor; lia.
Qed.
Example C12_example : members [2; 1] [1; 1] [ex_basis; ex_basis1] /\ Forall orthonormal [ex_basis; ex_basis1] /\ Forall2 le [1; 1] [2; 1] /\ shaped (lsumn [2; 1]) 1 (V [1; 2; 3]%R).
Proof.
  assert (H1 : basis_of 1 1 None [[1]]%R ex_basis1) by (split; [lia|split; [lia|split; [split; repeat constructor|split; [exact I|split; reflexivity]]]]).
  split. { split. { split; [reflexivity|split; [reflexivity|]]. exists [[1 / 2]; [0]]%R, (Some wb). apply ex_basis_of. } split; [|exact I].
    split; [reflexivity|split; [reflexivity|]]. exists [[1]]%R, None. exact H1. }
  split. { constructor; [|constructor; [|constructor]]. - exists 2, 1, (Some wb), [[1 / 2]; [0]]%R. split; [apply ex_basis_of|apply ex_orthonormal].
    - exists 1, 1, None, [[1]]%R. split; [exact H1|]. intros [|a] [|b] Ha Hb; try lia. unfold wip. cbn. ring. }
  split; [repeat constructor|]. split; reflexivity.
Qed.
Example C13_example : (exists q, dimensioned noX (CCum (1 / 2)) q /\ stores q s2 2 2) /\ (exists q, dimensioned noX (CRes (1 / 3)) q /\ stores q s2 2 2) /\
  (exists q, dimensioned noX (CProj (1 / 3)) q /\ stores q s2 2 2) /\ (exists q, dimensioned noX (CSval (1 / 3)) q /\ stores q s2 2 2) /\ decreasing s2 /\ 1 <= 2 <= length s2.
Proof.
  assert (K : forall a c, pick a = Ok c -> (forall z, c = CNum z -> (0 <= z)%Z) -> exists q, dimensioned noX c q /\ stores q s2 2 2).
  { intros a c Hc Hz. destruct (from_svd_ok noX (eye 2) s2 None a c None 2 2 s2 (is_mat_eye 2) ltac:(lia) s2_norm Hc Hz) as (q & _ & H1 & H2). eauto. }
  split; [apply (K (by_cum (1 / 2))); [reflexivity|discriminate]|]. split; [apply (K (by_res (1 / 3))); [reflexivity|discriminate]|].
  split; [apply (K (by_proj (1 / 3))); [reflexivity|discriminate]|]. split; [apply (K (by_sval (1 / 3))); [reflexivity|discriminate]|].
  split; [|cbn; lia]. intros [|[|i]] [|[|j]] Hij Hj; cbn in Hj; try lia; unfold s2, vget; cbn; lra.
Qed.
Definition pod1 : pod := mkpod None (CNum 1) false None (SCustom svd2) None None None None None None None None None None.
Example C13_example_function : exists E s Rt, pod_basis noX (eye 2) (by_num 1) (SCustom svd2) None = Ok (E, s, Rt) /\
  forall p L s0 Vt, pod_init noX (by_num 1) None (SCustom svd2) None None = Ok p -> pod_svd noX p 2 (eye 2) = Ok (L, s0, Vt) -> is_mat 2 2 L /\ is_mat 2 2 Vt.
Proof.
  assert (Sh : forall p L s0 Vt, pod_init noX (by_num 1) None (SCustom svd2) None None = Ok p -> pod_svd noX p 2 (eye 2) = Ok (L, s0, Vt) -> is_mat 2 2 L /\ is_mat 2 2 Vt).
  { intros p L s0 Vt E1 E2. cbn in E1. injection E1 as <-. unfold pod_svd in E2. cbn [p_sqrtw engine p_solver] in E2. unfold engine in E2. cbn [p_solver svd2] in E2. unfold svd2 in E2. injection E2 as <- _ <-. split; apply (is_mat_eye 2). }
  assert (Hc : crit_nonneg (p_crit pod1)) by (cbn; lia). destruct (fit2 pod1 eq_refl eq_refl eq_refl eq_refl Hc) as (q & F1 & F2 & F3 & _).
  assert (Hr : exists R0, p_right q = Some R0).
  { pose proof F1 as F4. unfold pod_fit in F4. cbn [snap_mat] in F4. destruct (pod_svd noX pod1 _ (eye 2)) as [[[L s0] Vt]|]; [|discriminate]. apply andthen_inv in F4. destruct F4 as (p1 & G1 & G2).
    apply store_svd_inv in G1. destruct G1 as (s1 & _ & ->). destruct (from_criterion_keeps _ _ _ G2) as (_ & _ & G3). cbn in G3. eauto. }
  destruct Hr as (R0 & Hr). destruct (C13_num noX 1 q s2 2 2 F3 F2 ltac:(lia)) as (L1 & _ & _ & _ & K). destruct F2 as (L & K2 & _).
  do 3 eexists. split; [|exact Sh]. unfold pod_basis. cbn [no_crit pick by_num a_num]. change (pod_init noX _ None (SCustom svd2) None None) with (Ok pod1). cbn [bind]. rewrite F1, K, K2, Hr. reflexivity.
Qed.
Example C12_example_names : exists bs', mk_bmulti [ex_basis; ex_basis1] (Some [2; 1]) = Ok bs' /\ map b_name bs' = [Some (variable_name 0); Some (variable_name 1)].
Proof. eexists. split; reflexivity. Qed.
Example C14_example : exists q, pod_run noX [OFit (S2 (eye 2)); OSetR 1; ODim (by_num 2)] pod2 = Some q /\ Forall proper_op [OFit (S2 (eye 2)); OSetR 1; ODim (by_num 2)] /\ rectangular noX pod2.
Proof.
  destruct (fit2 pod2 eq_refl eq_refl eq_refl eq_refl ltac:(cbn; lia)) as (p1 & E1 & S1 & D1 & T1 & C1).
  assert (W1 : p_weights p1 = None) by (injection T1; auto). destruct (setr2 1 p1 ltac:(lia) W1 S1) as (p2 & E2 & S2' & K2 & T2 & C2).
  assert (W2 : p_weights p2 = None) by (rewrite T1 in T2; injection T2; auto).
  destruct (set_dimension_ok noX (by_num 2) (CNum 2) p2 s2 2 2 S2') as (q & E3 & _); auto.
  { rewrite W2. exact I. } { rewrite s2_tot. lra. } { intros z E. injection E as <-. lia. }
  exists q. cbn [pod_run pod_step]. rewrite E1. cbn [pod_run pod_step]. rewrite E2. cbn [pod_run pod_step]. rewrite E3. split; [reflexivity|]. split.
  - constructor; [|constructor; [|constructor; [|constructor]]]; [|cbn; lia|cbn; lia]. exists (eye 2), 2, 2. split; [reflexivity|]. split; [apply is_mat_eye|lia].
  - intros n k keep Q L s Rt HQ Hn Hk E. unfold pod_svd, engine in E. cbn [p_sqrtw pod2 p_solver] in E. unfold svd2 in E. injection E as <- _ _. eauto.
Qed.
(* C15: C15_weighted_refuted exhibits an object meeting the hypotheses of C15_residual_energy *)
Definition QE : mat := [[2; 0]; [0; 0]]%R.
Definition eighE (G : mat) : res (vec * mat) := if mat_eq_dec G [[2; 0]; [0; 0]]%R then Ok ([0; 2]%R, [[0; 1]; [1; 0]]%R) else Err LinAlgError.
Definition XE : ext := {| x_svd := fun _ => Err OtherError; x_rsvd := fun _ _ => Err OtherError; x_eigh := eighE; x_sqrtm := fun _ => Err OtherError; x_chof := fun _ => Err OtherError; x_chos := fun _ _ => Err OtherError |}.
Lemma eighE_spec : eigh_spec eighE.
Proof.
  intros k G vals E Hk HG _ H. unfold eighE in H. destruct (mat_eq_dec G _) as [->|]; [|discriminate]. injection H as <- <-.
  assert (k = 2) by (now rewrite <- (is_mat_len _ _ _ HG)). subst k. split; [reflexivity|]. split; [split; repeat constructor|].
  split. { intros [|[|i]] [|[|j]] Hij Hj; try lia; unfold vget; cbn; lra. }
  split; intros [|[|a]] [|[|b]] Ha Hb; try lia; unfold mget, vget; cbn; ring.
Qed.
Example C16_example : exists L s Rt, method_of_snapshots XE 0 None QE = Ok (L, s, Rt) /\ length s = 1 /\
  (forall lam, gram_eigs 2 2 None QE lam -> forall a, a < 2 -> (vget lam a <= Rmax 0 (Rabs (vget lam (2 - 1))))%R -> vget lam a = 0%R).
Proof.
  assert (EG : matmul_r (mT QE) (mscale (/ INR 2) QE) = Ok [[2; 0]; [0; 0]]%R).
  { unfold matmul_r, matmul, matvec, dot, lsum, mscale, mT, QE. cbn. f_equal. repeat f_equal; field. }
  do 3 eexists. split.
  { unfold method_of_snapshots. change (ncols QE) with 2. cbn [Nat.eqb wmul_opt bind]. rewrite EG. cbn [bind XE x_eigh]. unfold eighE. destruct (mat_eq_dec _ _); [|contradiction].
    cbn [bind fst snd rev app]. unfold vmin. cbn [fold_left]. replace (Rmin 2 0) with 0%R by (symmetry; apply Rmin_right; lra). cbn [bind map]. rewrite Rabs_R0.
    replace (Rmax 0 0) with 0%R by (symmetry; apply Rmax_left; lra). unfold rltb. destruct (Rlt_dec 0 2) as [_|]; [|lra]. destruct (Rlt_dec 0 0) as [|_]; [lra|]. reflexivity. }
  split; [reflexivity|]. intros lam (HL & Hd & E & HO & HG) a Ha Hle.
  pose proof (HG 0 0 ltac:(lia) ltac:(lia)) as G00. pose proof (HG 0 1 ltac:(lia) ltac:(lia)) as G01. pose proof (HG 1 1 ltac:(lia) ltac:(lia)) as G11.
  pose proof (HO 0 0 ltac:(lia) ltac:(lia)) as O00. pose proof (HO 1 1 ltac:(lia) ltac:(lia)) as O11. pose proof (HO 0 1 ltac:(lia) ltac:(lia)) as O01.
  pose proof (Hd 0 1 ltac:(lia) ltac:(lia)) as D01. unfold wip in G00, G01, G11. cbn [bsum Nat.eqb wget] in *. change (INR 2) with 2%R in *. change (2 - 1) with 1 in Hle.
  assert (Q00 : mget QE 0 0 = 2%R) by reflexivity. assert (Q01 : mget QE 0 1 = 0%R) by reflexivity. assert (Q10 : mget QE 1 0 = 0%R) by reflexivity. assert (Q11 : mget QE 1 1 = 0%R) by reflexivity.
  rewrite Q00, ?Q01, ?Q10, ?Q11 in G00. rewrite ?Q00, ?Q01, ?Q10, ?Q11 in G01. rewrite ?Q00, ?Q01, ?Q10, ?Q11 in G11.
  set (x := mget E 0 0) in *. set (y := mget E 1 0) in *. set (z := mget E 0 1) in *. set (w := mget E 1 1) in *. set (l := vget lam 0) in *. set (m := vget lam 1) in *.
  assert (A1 : (l * (x * x) + m * (z * z) = 2)%R) by lra. assert (A2 : (l * (x * y) + m * (z * w) = 0)%R) by lra. assert (A3 : (l * (y * y) + m * (w * w) = 0)%R) by lra.
  assert (B1 : (2 * x = l * x)%R). { transitivity ((l * (x * x) + m * (z * z)) * x + (l * (x * y) + m * (z * w)) * y)%R; [rewrite A1, A2; ring|]. transitivity (l * x * (0 + x * x + y * y) + m * z * (0 + x * z + y * w))%R; [ring|]. rewrite O00, O01. ring. }
  assert (B2 : (l * y = 0)%R). { symmetry. transitivity ((l * (x * y) + m * (z * w)) * x + (l * (y * y) + m * (w * w)) * y)%R; [rewrite A2, A3; ring|]. transitivity (l * y * (0 + x * x + y * y) + m * w * (0 + x * z + y * w))%R; [ring|]. rewrite O00, O01. ring. }
  assert (B3 : (2 * z = m * z)%R). { transitivity ((l * (x * x) + m * (z * z)) * z + (l * (x * y) + m * (z * w)) * w)%R; [rewrite A1, A2; ring|]. transitivity (m * z * (0 + z * z + w * w) + l * x * (0 + x * z + y * w))%R; [ring|]. rewrite O11, O01. ring. }
  assert (B4 : (m * w = 0)%R). { symmetry. transitivity ((l * (x * y) + m * (z * w)) * z + (l * (y * y) + m * (w * w)) * w)%R; [rewrite A2, A3; ring|]. transitivity (m * w * (0 + z * z + w * w) + l * y * (0 + x * z + y * w))%R; [ring|]. rewrite O11, O01. ring. }
  apply Rmult_integral in B2. destruct B2 as [Hl|Hy].
  - exfalso. assert (Hx : x = 0%R) by (rewrite Hl in B1; lra). rewrite Hx in *. assert (Hw : w = 0%R). { assert (Hyw : (y * w = 0)%R) by lra. apply Rmult_integral in Hyw. destruct Hyw as [Hy|]; auto. rewrite Hy in O00. lra. }
    rewrite Hw in *. assert (Hm : (m * z - 2 * z = 0)%R) by lra. replace (m * z - 2 * z)%R with ((m - 2) * z)%R in Hm by ring. apply Rmult_integral in Hm. destruct Hm as [Hm|Hz]; [lra|]. rewrite Hz in O11. lra.
  - rewrite Hy in *. assert (Hl : l = 2%R). { assert (K : ((l - 2) * x = 0)%R) by lra. apply Rmult_integral in K. destruct K as [|K]; [lra|]. rewrite K in O00. lra. }
    assert (Hz : z = 0%R). { assert (K : (x * z = 0)%R) by lra. apply Rmult_integral in K. destruct K as [K|]; auto. rewrite K in O00. lra. }
    rewrite Hz in *. assert (Hm : m = 0%R). { apply Rmult_integral in B4. destruct B4 as [|K]; auto. rewrite K in O11. lra. }
    rewrite Hm, Rabs_R0 in Hle. rewrite Rmax_left in Hle by lra. destruct a as [|[|a]]; [fold l in Hle; lra|exact Hm|lia].
Qed.

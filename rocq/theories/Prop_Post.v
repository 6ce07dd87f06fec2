(* Prop_Post.v -- property C50: the error measures. *)
From Coq Require Import ZArith Lia Lra List.
From Verif Require Import PostFinal.
#[local] Open Scope R_scope.

(* C50: lp_error(Q, A, p): column by column, the p-norm of the difference, and its quotient by the p-norm of the column of Q, or by the largest of these with normalize=True. *)
Theorem C50_lp_error :
  forall n k Q A p normalize,
  (0 < n)%nat -> (0 < k)%nat -> is_mat n k Q -> is_mat n k A -> pos_order p ->
  exists e rel d, lp_error (M Q) (M A) p normalize = Ok (e, rel) /\ length e = k /\ length rel = k /\ length d = k /\
    (forall j, (j < k)%nat -> is_pnorm p n (fun i => mget Q i j - mget A i j) (vget e j)) /\
    (forall j, (j < k)%nat -> is_pnorm p n (fun i => mget Q i j) (vget d j)) /\
    (if normalize
     then exists m, (forall j, (j < k)%nat -> vget d j <= m) /\ (exists j, (j < k)%nat /\ vget d j = m) /\
                    forall j, (j < k)%nat -> quotient (vget e j) m (nth j rel None)
     else forall j, (j < k)%nat -> quotient (vget e j) (vget d j) (nth j rel None)).
Proof. exact lp_error_ok. Qed.
Print Assumptions C50_lp_error.

(* C50: the same for vectors. *)
Theorem C50_lp_error_vector :
  forall n q a p normalize,
  (0 < n)%nat -> is_vec n q -> is_vec n a -> pos_order p ->
  exists e rel d, lp_error (V q) (V a) p normalize = Ok ([e], [rel]) /\
    is_pnorm p n (fun i => vget q i - vget a i) e /\ is_pnorm p n (vget q) d /\ quotient e d rel.
Proof. exact lp_error_vec. Qed.
Print Assumptions C50_lp_error_vector.

(* C50: arrays of different shapes raise ValueError. *)
Theorem C50_lp_shapes :
  forall Q A p nz,
  shape_eq Q A = false -> lp_error Q A p nz = Err ValueError.
Proof. exact lp_error_shapes. Qed.
Print Assumptions C50_lp_shapes.

(* C50: orders that are not positive raise ValueError. *)
Theorem C50_lp_order :
  forall Q A p nz,
  ~ pos_order p -> lp_error Q A p nz = Err ValueError.
Proof. exact lp_error_order. Qed.
Print Assumptions C50_lp_order.

(* C50: the error of a column is zero exactly if the columns are equal. *)
Theorem C50_lp_zero :
  forall n k p, (0 < n)%nat -> (0 < k)%nat -> pos_order p ->
  forall Q A nz e rel,
  is_mat n k Q -> is_mat n k A -> lp_error (M Q) (M A) p nz = Ok (e, rel) ->
  forall j, (j < k)%nat -> (vget e j = 0 <-> forall i, (i < n)%nat -> mget Q i j = mget A i j).
Proof. exact lp_zero. Qed.
Print Assumptions C50_lp_zero.

(* C50: the absolute error is symmetric. *)
Theorem C50_lp_symmetric :
  forall n k p, (0 < n)%nat -> (0 < k)%nat -> pos_order p ->
  forall Q A nz nz' e rel e' rel',
  is_mat n k Q -> is_mat n k A ->
  lp_error (M Q) (M A) p nz = Ok (e, rel) -> lp_error (M A) (M Q) p nz' = Ok (e', rel') -> e' = e.
Proof. exact lp_sym. Qed.
Print Assumptions C50_lp_symmetric.

(* C50: multiplying both arguments by c multiplies absolute errors by |c| and keeps relative errors. *)
Theorem C50_lp_scaling :
  forall n k p, (0 < n)%nat -> (0 < k)%nat -> pos_order p ->
  forall c Q A Q' A' nz e rel e' rel',
  is_mat n k Q -> is_mat n k A -> times n k c Q Q' -> times n k c A A' ->
  lp_error (M Q) (M A) p nz = Ok (e, rel) -> lp_error (M Q') (M A') p nz = Ok (e', rel') ->
  (forall j, (j < k)%nat -> vget e' j = Rabs c * vget e j) /\ (c <> 0 -> rel' = rel).
Proof. exact lp_scale. Qed.
Print Assumptions C50_lp_scaling.

(* C50: the triangle inequality for p >= 1. *)
Theorem C50_lp_triangle :
  forall n k p, (0 < n)%nat -> (0 < k)%nat -> pos_order p ->
  forall Q A B nz nz' nz'' e rel e' rel' e'' rel'',
  at_least_one p -> is_mat n k Q -> is_mat n k A -> is_mat n k B ->
  lp_error (M Q) (M B) p nz = Ok (e, rel) -> lp_error (M Q) (M A) p nz' = Ok (e', rel') -> lp_error (M A) (M B) p nz'' = Ok (e'', rel'') ->
  forall j, (j < k)%nat -> vget e j <= vget e' j + vget e'' j.
Proof. exact lp_triangle. Qed.
Print Assumptions C50_lp_triangle.

(* C50, false for the orders below one that lp_error accepts: the triangle inequality. *)
Theorem C50_lp_triangle_refuted :
  exists p Q A B e rel e' rel' e'' rel'', 0 < p < 1 /\
  lp_error (M Q) (M B) (Fin p) false = Ok (e, rel) /\ lp_error (M Q) (M A) (Fin p) false = Ok (e', rel') /\ lp_error (M A) (M B) (Fin p) false = Ok (e'', rel'') /\
  vget e 0 > vget e' 0 + vget e'' 0.
Proof. exact lp_triangle_below_one. Qed.
Print Assumptions C50_lp_triangle_refuted.

(* C50: frobenius_error(Q, A) is the Frobenius norm of the difference, absolute and relative to Q. *)
Theorem C50_frobenius :
  forall n k Q A,
  (0 < n)%nat -> is_mat n k Q -> is_mat n k A ->
  exists e d rel, frobenius_error (M Q) (M A) = Ok (e, rel) /\ 0 <= e /\ e * e = gap2 n k Q A /\ 0 <= d /\ d * d = sumsq n k Q /\ quotient e d rel.
Proof. exact frobenius_ok. Qed.
Print Assumptions C50_frobenius.

(* C50: other shapes raise ValueError. *)
Theorem C50_frobenius_rejects :
  forall Q A,
  shape_eq Q A = false \/ (exists v, Q = V v) -> frobenius_error Q A = Err ValueError.
Proof. exact frobenius_rejects. Qed.
Print Assumptions C50_frobenius_rejects.

(* C50: zero exactly for equal arrays. *)
Theorem C50_frobenius_zero :
  forall n k, (0 < n)%nat ->
  forall Q A e rel,
  is_mat n k Q -> is_mat n k A -> frobenius_error (M Q) (M A) = Ok (e, rel) -> (e = 0 <-> Q = A).
Proof. exact fro_zero. Qed.
Print Assumptions C50_frobenius_zero.

(* C50: symmetric. *)
Theorem C50_frobenius_symmetric :
  forall n k, (0 < n)%nat ->
  forall Q A e rel e' rel',
  is_mat n k Q -> is_mat n k A -> frobenius_error (M Q) (M A) = Ok (e, rel) -> frobenius_error (M A) (M Q) = Ok (e', rel') -> e' = e.
Proof. exact fro_sym. Qed.
Print Assumptions C50_frobenius_symmetric.

(* C50: scales with the data. *)
Theorem C50_frobenius_scaling :
  forall n k, (0 < n)%nat ->
  forall c Q A Q' A' e rel e' rel',
  is_mat n k Q -> is_mat n k A -> times n k c Q Q' -> times n k c A A' ->
  frobenius_error (M Q) (M A) = Ok (e, rel) -> frobenius_error (M Q') (M A') = Ok (e', rel') -> e' = Rabs c * e /\ (c <> 0 -> rel' = rel).
Proof. exact fro_scale. Qed.
Print Assumptions C50_frobenius_scaling.

(* C50: triangle inequality. *)
Theorem C50_frobenius_triangle :
  forall n k, (0 < n)%nat ->
  forall Q A B e rel e' rel' e'' rel'',
  is_mat n k Q -> is_mat n k A -> is_mat n k B ->
  frobenius_error (M Q) (M B) = Ok (e, rel) -> frobenius_error (M Q) (M A) = Ok (e', rel') -> frobenius_error (M A) (M B) = Ok (e'', rel'') -> e <= e' + e''.
Proof. exact fro_triangle. Qed.
Print Assumptions C50_frobenius_triangle.

(* C50: its square is the sum of the squares of the 2-norm errors of the columns. *)
Theorem C50_frobenius_columns :
  forall n k, (0 < n)%nat ->
  forall Q A nz e rel es rels,
  (0 < k)%nat -> is_mat n k Q -> is_mat n k A -> frobenius_error (M Q) (M A) = Ok (e, rel) ->
  lp_error (M Q) (M A) (Fin 2) nz = Ok (es, rels) -> e * e = bsum k (fun j => vget es j * vget es j).
Proof. exact fro_columns. Qed.
Print Assumptions C50_frobenius_columns.

(* C50: Lp_error(Q, A, t, p) is the p-th root of the trapezoidal integral of the p-th powers of the difference, or the maximum for p = inf, absolute and relative to Q. *)
Theorem C50_Lp_error :
  forall n k Q A p t ts,
  (0 < n)%nat -> (0 < k)%nat -> is_mat n k Q -> is_mat n k A -> pos_order p ->
  (p = Inf \/ (t = Times ts /\ length ts = k /\ in_order ts)) ->
  exists e d rel, Lp_error (M Q) (M A) t p = Ok (Some e, rel) /\ is_Lpnorm p n k (vget ts) (fun i j => mget Q i j - mget A i j) e /\
    is_Lpnorm p n k (vget ts) (mget Q) d /\ quotient e d rel.
Proof. exact Lp_error_ok. Qed.
Print Assumptions C50_Lp_error.

(* C50: a vector is one row. *)
Theorem C50_Lp_error_vector :
  forall q a t p,
  Lp_error (V q) (V a) t p = Lp_error (M [q]) (M [a]) t p.
Proof. exact Lp_error_vec. Qed.
Print Assumptions C50_Lp_error_vector.

(* C50: invalid orders, shapes or times raise ValueError. *)
Theorem C50_Lp_rejects :
  forall Q A t p,
  ~ pos_order p \/ shape_eq Q A = false \/ (p <> Inf /\ forall ts, t = Times ts -> length ts <> ncols (atleast_2d Q)) ->
  Lp_error Q A t p = Err ValueError.
Proof. exact Lp_error_rejects. Qed.
Print Assumptions C50_Lp_rejects.

(* C50: zero exactly for equal arrays, with at least two increasing times. *)
Theorem C50_Lp_zero :
  forall n k p t ts, (0 < n)%nat -> (0 < k)%nat -> pos_order p -> (p = Inf \/ (t = Times ts /\ length ts = k /\ in_order ts)) ->
  forall Q A x rel,
  (p = Inf \/ (2 <= k)%nat /\ strictly_ordered ts) -> is_mat n k Q -> is_mat n k A -> Lp_error (M Q) (M A) t p = Ok (Some x, rel) -> (x = 0 <-> Q = A).
Proof. exact Lp_zero. Qed.
Print Assumptions C50_Lp_zero.

(* C50: symmetric. *)
Theorem C50_Lp_symmetric :
  forall n k p t ts, (0 < n)%nat -> (0 < k)%nat -> pos_order p -> (p = Inf \/ (t = Times ts /\ length ts = k /\ in_order ts)) ->
  forall Q A x rel y rel',
  is_mat n k Q -> is_mat n k A -> Lp_error (M Q) (M A) t p = Ok (Some x, rel) -> Lp_error (M A) (M Q) t p = Ok (Some y, rel') -> y = x.
Proof. exact Lp_sym. Qed.
Print Assumptions C50_Lp_symmetric.

(* C50: scales with the data. *)
Theorem C50_Lp_scaling :
  forall n k p t ts, (0 < n)%nat -> (0 < k)%nat -> pos_order p -> (p = Inf \/ (t = Times ts /\ length ts = k /\ in_order ts)) ->
  forall c Q A Q' A' x rel y rel',
  is_mat n k Q -> is_mat n k A -> times n k c Q Q' -> times n k c A A' ->
  Lp_error (M Q) (M A) t p = Ok (Some x, rel) -> Lp_error (M Q') (M A') t p = Ok (Some y, rel') -> y = Rabs c * x /\ (c <> 0 -> rel' = rel).
Proof. exact Lp_scale. Qed.
Print Assumptions C50_Lp_scaling.

(* C50: triangle inequality for p >= 1. *)
Theorem C50_Lp_triangle :
  forall n k p t ts, (0 < n)%nat -> (0 < k)%nat -> pos_order p -> (p = Inf \/ (t = Times ts /\ length ts = k /\ in_order ts)) ->
  forall Q A B x rel y rel' z rel'',
  at_least_one p -> is_mat n k Q -> is_mat n k A -> is_mat n k B ->
  Lp_error (M Q) (M B) t p = Ok (Some x, rel) -> Lp_error (M Q) (M A) t p = Ok (Some y, rel') -> Lp_error (M A) (M B) t p = Ok (Some z, rel'') -> x <= y + z.
Proof. exact Lp_triangle. Qed.
Print Assumptions C50_Lp_triangle.

(* C50, false with a single time: different arrays have error zero. *)
Theorem C50_Lp_one_time_refuted :
  exists Q A t, Lp_error (M Q) (M A) (Times t) (Fin 2) = Ok (Some 0, None) /\ Q <> A /\ shape_eq (M Q) (M A) = true /\ length t = 1%nat.
Proof. exact Lp_one_time. Qed.
Print Assumptions C50_Lp_one_time_refuted.

(* C50, false for times out of order: the error is not a number. *)
Theorem C50_Lp_unordered_times_refuted :
  exists Q A t, Lp_error (M Q) (M A) (Times t) (Fin 2) = Ok (None, None) /\ shape_eq (M Q) (M A) = true /\ length t = 2%nat.
Proof. exact Lp_unordered. Qed.
Print Assumptions C50_Lp_unordered_times_refuted.

(* C50: projection_error(Q, V) for orthonormal columns of V is the distance from Q to the nearest V C, with C = V^T Q, and the squares of the parts add up. *)
Theorem C50_projection :
  forall n r k, (0 < n)%nat -> (0 < r)%nat -> (0 < k)%nat ->
  forall V Q,
  orthocols n r V -> is_mat n k Q -> exists e d rel C,
  projection_error (M Q) V = Ok (e, rel) /\ 0 <= e /\ 0 <= d /\ d * d = sumsq n k Q /\ quotient e d rel /\
  is_mat r k C /\ (forall a j, (a < r)%nat -> (j < k)%nat -> mget C a j = bsum n (fun i => mget V i a * mget Q i j)) /\
  e * e = bsum n (fun i => bsum k (fun j => Rsqr (mget Q i j - combo r V C i j))) /\
  sumsq n k Q = sumsq r k C + e * e /\
  (forall C', e * e <= bsum n (fun i => bsum k (fun j => Rsqr (mget Q i j - combo r V C' i j)))).
Proof. exact projection_ok. Qed.
Print Assumptions C50_projection.

(* C50: a single state is one column. *)
Theorem C50_projection_vector :
  forall n r V q,
  (0 < n)%nat -> (0 < r)%nat -> is_mat n r V -> is_vec n q ->
  projection_error (OpsModel.V q) V = projection_error (M (onecol q)) V.
Proof. exact projection_vec. Qed.
Print Assumptions C50_projection_vector.

(* C50: the relative error is between zero and one. *)
Theorem C50_projection_at_most_one :
  forall n r k, (0 < n)%nat -> (0 < r)%nat -> (0 < k)%nat ->
  forall V Q e rel x,
  orthocols n r V -> is_mat n k Q -> projection_error (M Q) V = Ok (e, rel) -> rel = Some x -> 0 <= x <= 1.
Proof. exact projection_le_one. Qed.
Print Assumptions C50_projection_at_most_one.

(* C50: the error is zero exactly if the columns of Q are combinations of those of V. *)
Theorem C50_projection_zero :
  forall n r k, (0 < n)%nat -> (0 < r)%nat -> (0 < k)%nat ->
  forall V Q e rel,
  orthocols n r V -> is_mat n k Q -> projection_error (M Q) V = Ok (e, rel) ->
  (e = 0 <-> exists C, forall i j, (i < n)%nat -> (j < k)%nat -> mget Q i j = combo r V C i j).
Proof. exact projection_zero. Qed.
Print Assumptions C50_projection_zero.

(* Cases. *)
Example C50_case : exists e rel, lp_error (M [[3; 0]; [4; 1]]) (M [[0; 0]; [0; 1]]) (Fin 2) true = Ok (e, rel) /\ vget e 0 = 5 /\ vget e 1 = 0 /\ nth 0 rel None = Some 1.
Proof.
  assert (HQ : is_mat 2 2 [[3; 0]; [4; 1]]) by (split; [reflexivity|repeat constructor]). assert (HA : is_mat 2 2 [[0; 0]; [0; 1]]) by (split; [reflexivity|repeat constructor]).
  destruct (lp_error_ok 2 2 _ _ (Fin 2) true ltac:(lia) ltac:(lia) HQ HA two_pos) as (e & rel & d & E & _ & _ & _ & He & Hd & m & M1 & (j & Hj & M2) & M3).
  exists e, rel. split; auto.
  assert (U : forall f x y, 0 <= y -> is_pnorm (Fin 2) 2 f x -> y * y = Rsqr (f 0%nat) + Rsqr (f 1%nat) -> x = y).
  { intros f x y Hy [H0 H] K. rewrite rpow_2 in H by auto. cbn [bsum] in H. rewrite !rabs2 in H. nra. }
  assert (E0 : vget e 0 = 5) by (apply (U _ _ 5 ltac:(lra) (He 0%nat ltac:(lia))); cbn; unfold Rsqr; ring).
  assert (E1 : vget e 1 = 0) by (apply (U _ _ 0 ltac:(lra) (He 1%nat ltac:(lia))); cbn; unfold Rsqr; ring).
  assert (D0 : vget d 0 = 5) by (apply (U _ _ 5 ltac:(lra) (Hd 0%nat ltac:(lia))); cbn; unfold Rsqr; ring).
  assert (D1 : vget d 1 = 1) by (apply (U _ _ 1 ltac:(lra) (Hd 1%nat ltac:(lia))); cbn; unfold Rsqr; ring).
  split; auto. split; auto. specialize (M3 0%nat ltac:(lia)). pose proof (M1 0%nat ltac:(lia)) as K. assert (Em : m = 5).
  { assert (j = 0 \/ j = 1)%nat as [->| ->] by lia; lra. }
  rewrite E0, Em in M3. destruct M3 as [[K1 _]|[_ ->]]; [lra|]. f_equal. field.
Qed.
Example C50_Lp_case : exists e rel, Lp_error (M [[1; 2; 0]]) (M [[0; 0; 1]]) (Times [0; 1; 3]) (Fin 3) = Ok (Some e, rel).
Proof.
  destruct (Lp_error_ok 1 3 [[1; 2; 0]] [[0; 0; 1]] (Fin 3) (Times [0; 1; 3]) [0; 1; 3]) as (e & d & rel & E & _); eauto; try lia; try (split; [reflexivity|repeat constructor]).
  - cbn; lra.
  - right. split; auto. split; auto. intros i j Hij Hj. cbn in Hj. assert (j = 1 \/ j = 2)%nat as [->| ->] by lia; [assert (i = 0)%nat by lia|assert (i = 0 \/ i = 1)%nat by lia; destruct H]; subst; cbn; lra.
Qed.
Example C50_projection_case : exists e rel, projection_error (M [[3; 0]; [4; 1]]) [[1]; [0]] = Ok (e, rel) /\ e * e = 17.
Proof.
  assert (HV : orthocols 2 1 [[1]; [0]]).
  { split; [split; [reflexivity|repeat constructor]|]. intros a b Ha Hb. assert (a = 0)%nat by lia. assert (b = 0)%nat by lia. subst. cbn. ring. }
  destruct (projection_ok 2 1 2 ltac:(lia) ltac:(lia) ltac:(lia) _ [[3; 0]; [4; 1]] HV ltac:(split; [reflexivity|repeat constructor])) as (e & d & rel & C & E & _ & _ & _ & _ & _ & GC & EE & _).
  exists e, rel. split; auto. rewrite EE. cbn [bsum]. unfold combo. cbn [bsum]. rewrite !GC by lia. cbn. unfold Rsqr. ring.
Qed.

(* SpecLift.v -- numbers with infinities, and the notions of property C49. *)
From Verif Require Export Spec OpsModel.
#[local] Open Scope R_scope.

(* a floating-point number without rounding (and without the sign of zero) *)
Inductive fnum := F (x : R) | PInf | MInf | NaN.
(* arrays of them *)
Inductive narr := NV (v : list fnum) | NM (m : list (list fnum)).
(* an array of finite numbers *)
Definition finite (Q : arr) : narr := match Q with V v => NV (map F v) | M m => NM (map (map F) m) end.
Definition entries (Q : arr) : vec := match Q with V v => v | M m => concat m end.
(* nonempty and rectangular *)
Definition proper (Q : arr) : Prop :=
  match Q with V v => (0 < length v)%nat | M m => exists n k, (0 < n)%nat /\ is_mat n k m end.
(* the states for which x -> x^p is undone by y -> y^(1/p) *)
Definition recoverable (p x : R) : Prop := 0 <= x \/ (x < 0 /\ p = -1).
(* p is the first order that is not zero *)
Definition first_nonzero (orders : vec) (p : R) : Prop :=
  exists l l', orders = l ++ p :: l' /\ p <> 0 /\ forall x, In x l -> x = 0.
Definition integer (p : R) : Prop := exists z, p = IZR z.
(* where x -> x^p is differentiable (on both sides) *)
Definition smooth (p x : R) : Prop := 0 < x \/ (x < 0 /\ integer p) \/ (x = 0 /\ exists n, p = INR (S n)).
(* g(0) has the derivative v along the line, and its values near 0 are finite *)
Definition derivative_at_0 (g : R -> fnum) (v : R) : Prop :=
  exists f delta, 0 < delta /\ (forall t, Rabs t < delta -> g t = F (f t)) /\ derivable_pt_lim f 0 v.
(* entry (i, j) of an array; a vector has one column *)
Definition aget (Q : arr) (i j : nat) : R := match Q with V v => vget v i | M m => mget m i j end.
Definition nget (L : narr) (i j : nat) : fnum := match L with NV v => nth i v NaN | NM m => nth j (nth i m []) NaN end.
Definition arows (Q : arr) : nat := match Q with V v => length v | M m => nrows m end.
Definition acols (Q : arr) : nat := match Q with V v => 1 | M m => ncols m end.
Definition nrows_n (L : narr) : nat := match L with NV v => length v | NM m => length m end.
(* Q + t D, entry by entry, for arrays of the same shape *)
Definition aline (Q D : arr) (t : R) : arr :=
  match Q, D with
  | V q, V d => V (map (fun i => vget q i + t * vget d i) (seq 0 (length q)))
  | M q, M d => M (map (fun i => map (fun j => mget q i j + t * mget d i j) (seq 0 (ncols q))) (seq 0 (nrows q)))
  | _, _ => Q
  end.
(* D has the shape of Q *)
Definition same_shape (Q D : arr) : Prop :=
  match Q, D with
  | V q, V d => (0 < length q)%nat /\ length d = length q
  | M q, M d => exists n k, (0 < n)%nat /\ is_mat n k q /\ is_mat n k d
  | _, _ => False
  end.

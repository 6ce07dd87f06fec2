(* SpecLstsq.v -- vocabulary for the statements about the least-squares solvers: the documented behaviour of the
   scipy routines, the objectives, and the histories of calls. *)
From Verif Require Export SpecExt SolverModel.
#[local] Open Scope R_scope.

(* scipy.linalg.svd(A, full_matrices=False): a thin singular value decomposition, whenever it returns *)
Definition svd_spec (svd : mat -> res (mat * vec * mat)) : Prop :=
  forall k d A Phi s PsiT, (0 < k)%nat -> (0 < d)%nat -> is_mat k d A -> svd A = Ok (Phi, s, PsiT) ->
    let p := Nat.min k d in
    is_mat k p Phi /\ is_vec p s /\ is_mat p d PsiT /\
    (forall i j, (i < p)%nat -> (j < p)%nat -> bsum k (fun t => mget Phi t i * mget Phi t j) = if Nat.eqb i j then 1 else 0) /\
    (forall i j, (i < p)%nat -> (j < p)%nat -> bsum d (fun l => mget PsiT i l * mget PsiT j l) = if Nat.eqb i j then 1 else 0) /\
    (forall i, (i < p)%nat -> 0 <= vget s i) /\
    (forall i j, (i <= j)%nat -> (j < p)%nat -> vget s j <= vget s i) /\
    (forall t l, (t < k)%nat -> (l < d)%nat -> mget A t l = bsum p (fun i => vget s i * (mget Phi t i * mget PsiT i l))).

(* |A x - B_j|^2 for column j of B *)
Definition colres (k d : nat) (A B : mat) (j : nat) (x : vec) : R :=
  bsum k (fun t => Rsqr (bsum d (fun l => mget A t l * vget x l) - mget B t j)).
(* scipy.linalg.lstsq(A, B, **opts)[0]: a least-squares solution of smallest norm, whenever it returns *)
Definition lstsq_spec (lstsq : lsopts -> mat -> mat -> res mat) (opts : lsopts) : Prop :=
  forall k d c A B X, (0 < k)%nat -> (0 < d)%nat -> is_mat k d A -> is_mat k c B -> lstsq opts A B = Ok X ->
    is_mat d c X /\
    forall j x, (j < c)%nat -> is_vec d x ->
      colres k d A B j (colv d X j) <= colres k d A B j x /\
      (colres k d A B j x <= colres k d A B j (colv d X j) ->
       bsum d (fun l => Rsqr (mget X l j)) <= bsum d (fun l => Rsqr (vget x l))).

(* row i of the objective: the data misfit |D o_i - z_i|^2 ... *)
Definition misfit (k d : nat) (D Z : mat) (O : mat) (i : nat) : R :=
  bsum k (fun t => Rsqr (bsum d (fun l => mget D t l * mget O i l) - mget Z i t)).
(* ... the penalty lam^2 |o_i|^2 ... *)
Definition ridge (d : nat) (lam : R) (O : mat) (i : nat) : R := lam * lam * bsum d (fun l => Rsqr (mget O i l)).
(* ... and the penalty |G o_i|^2 *)
Definition tikpen (d : nat) (G : mat) (O : mat) (i : nat) : R :=
  bsum d (fun a => Rsqr (bsum d (fun l => mget G a l * mget O i l))).

(* O minimises every row of the objective f over all r x d matrices *)
Definition row_minimizer (r d : nat) (f : mat -> nat -> R) (O : mat) : Prop :=
  is_mat r d O /\ forall O' i, is_mat r d O' -> (i < r)%nat -> f O i <= f O' i.
(* and no other row does as well *)
Definition row_unique (r d : nat) (f : mat -> nat -> R) (O : mat) : Prop :=
  forall O' i, is_mat r d O' -> (i < r)%nat -> f O' i <= f O i -> forall l, (l < d)%nat -> mget O' i l = mget O i l.
(* among the matrices that do as well in row i, row i of O is the shortest *)
Definition row_shortest (r d : nat) (f : mat -> nat -> R) (O : mat) : Prop :=
  forall O' i, is_mat r d O' -> (i < r)%nat -> f O' i <= f O i ->
    bsum d (fun l => Rsqr (mget O i l)) <= bsum d (fun l => Rsqr (mget O' i l)).

(* the normal equations of row i: D'(D o - z) + pen = 0 *)
Definition normal_eq (k d r : nat) (D Z O : mat) (pen : nat -> nat -> R) : Prop :=
  forall i l, (i < r)%nat -> (l < d)%nat ->
    bsum k (fun t => mget D t l * (bsum d (fun j => mget D t j * mget O i j) - mget Z i t)) + pen i l = 0.

(* the stacked matrix [D; G] has independent columns *)
Definition joint_injective (k d : nat) (D G : mat) : Prop :=
  forall x, is_vec d x -> (forall t, (t < k)%nat -> bsum d (fun l => mget D t l * vget x l) = 0) ->
    (forall a, (a < d)%nat -> bsum d (fun l => mget G a l * vget x l) = 0) -> forall l, (l < d)%nat -> vget x l = 0.

(* B is a sum of n products of a column and a row *)
Definition rank_at_most (k d n : nat) (B : mat) : Prop :=
  exists X Y : nat -> nat -> R, forall t l, (t < k)%nat -> (l < d)%nat -> mget B t l = bsum n (fun a => X a t * Y a l).
(* squared Frobenius distance *)
Definition dist2 (k d : nat) (A B : mat) : R := bsum k (fun t => bsum d (fun l => Rsqr (mget A t l - mget B t l))).

(* numpy arrays: nonempty and rectangular *)
Definition good_arr (a : arr) : Prop :=
  match a with V v => (0 < length v)%nat | M m => exists r c, (0 < r)%nat /\ (0 < c)%nat /\ is_mat r c m end.

(* the objects reachable by calls of fit(D, Z) and assignments to regularizer, raising or not *)
Inductive l2_reach (svd : mat -> res (mat * vec * mat)) : l2 -> Prop :=
| l2r_new : l2_reach svd {| l2_reg := None; l2_pre := None |}
| l2r_fit s D Z s' : l2_reach svd s -> good_arr D -> good_arr Z -> l2_fit svd s D Z = Ok s' -> l2_reach svd s'
| l2r_reg s g : l2_reach svd s -> l2_reach svd (fst (l2_set s g)).
Inductive ld_reach (svd : mat -> res (mat * vec * mat)) : l2d -> Prop :=
| ldr_new : ld_reach svd {| ld_reg := None; ld_pre := None |}
| ldr_fit s D Z : ld_reach svd s -> good_arr D -> good_arr Z -> ld_reach svd (fst (ld_fit svd s D Z))
| ldr_reg s g : ld_reach svd s -> ld_reach svd (fst (ld_set s g)).
(* for the Tikhonov solvers: successful calls of fit, and any assignments *)
Inductive tk_reach : tk -> Prop :=
| tkr_new m o : tk_reach {| tk_reg := None; tk_method := m; tk_opts := o; tk_data := None; tk_pre := None |}
| tkr_fit s D Z s' : tk_reach s -> good_arr D -> good_arr Z -> tk_fit s D Z = (s', Ok tt) -> tk_reach s'
| tkr_reg s g : tk_reach s -> tk_reach (fst (tk_set s g)).
Inductive td_reach : tkd -> Prop :=
| tdr_new m : td_reach {| td_reg := None; td_method := m; td_data := None; td_pre := None |}
| tdr_fit s D Z s' : td_reach s -> good_arr D -> good_arr Z -> td_fit s D Z = (s', Ok tt) -> td_reach s'
| tdr_reg s g : td_reach s -> td_reach (fst (td_set s g)).
Inductive ts_reach (svd : mat -> res (mat * vec * mat)) : tsvd -> Prop :=
| tsr_new : ts_reach svd {| ts_modes := None; ts_pre := None |}
| tsr_fit s D Z s' : ts_reach svd s -> good_arr D -> good_arr Z -> ts_fit svd s D Z = Ok s' -> ts_reach svd s'
| tsr_set s n : ts_reach svd s -> ts_reach svd (fst (ts_set s n)).

(* total least squares: O solves the system perturbed by E and F, whose squared size is pert2 *)
Definition consistent (k d r : nat) (D Z E F O : mat) : Prop :=
  forall t c, (t < k)%nat -> (c < r)%nat ->
    bsum d (fun l => (mget D t l + mget E t l) * mget O c l) = mget Z c t + mget F t c.
Definition pert2 (k d r : nat) (E F : mat) : R :=
  bsum k (fun t => bsum d (fun l => Rsqr (mget E t l)) + bsum r (fun c => Rsqr (mget F t c))).

(* |[D; lam I] x|^2, and the condition number of [D; lam I] as the ratio of its largest and smallest stretch *)
Definition stretch2 (k d : nat) (D : mat) (lam : R) (x : vec) : R :=
  bsum k (fun t => Rsqr (bsum d (fun l => mget D t l * vget x l))) + lam * lam * bsum d (fun l => Rsqr (vget x l)).
Definition unit_vec (d : nat) (x : vec) : Prop := is_vec d x /\ bsum d (fun l => Rsqr (vget x l)) = 1.
Definition condition_number (k d : nat) (D : mat) (lam c : R) : Prop :=
  exists hi lo, 0 < lo /\ (forall x, unit_vec d x -> lo <= stretch2 k d D lam x <= hi) /\
    (exists x, unit_vec d x /\ stretch2 k d D lam x = hi) /\ (exists x, unit_vec d x /\ stretch2 k d D lam x = lo) /\
    0 <= c /\ c * c = hi / lo.
(* D is k x d and Z is r x k, all positive *)
Definition dims (D Z : mat) (k d r : nat) : Prop := (0 < k)%nat /\ (0 < d)%nat /\ (0 < r)%nat /\ is_mat k d D /\ is_mat r k Z.
(* the precision matrix of a row of the posterior: (D'D + pen) / v *)
Definition precision (k d : nat) (D : mat) (pen : nat -> nat -> R) (v : R) (P : mat) : Prop :=
  is_mat d d P /\ forall a b, (a < d)%nat -> (b < d)%nat -> mget P a b = (bsum k (fun t => mget D t a * mget D t b) + pen a b) / v.
(* the number of columns a (non-interpolated) operator occupies in the operator matrix *)
Definition class_width (r m : nat) (c : cls) : nat :=
  match c with
  | CConst => 1 | CLin => r | CPoly Quadratic => r * (r + 1) / 2 | CPoly Cubic => r * (r + 1) * (r + 2) / 6
  | CPoly Quartic => r * (r + 1) * (r + 2) * (r + 3) / 24 | CInp => m | CStIn => r * m
  end.
Definition regop_width (r m : nat) (o : regop) : nat :=
  match o with RgOp c => class_width r m c | RgAff a => a_nterms a * class_width r m (a_cls a) | RgItp _ => 0 end.

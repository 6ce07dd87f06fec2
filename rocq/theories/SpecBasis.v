(* SpecBasis.v -- vocabulary for the statements about bases. *)
From Verif Require Export SpecPre BasisModel.
From Verif Require SpecLstsq.
#[local] Open Scope nat_scope.

(* entry i of column j; a one-dimensional array has one column *)
Definition aget (a : arr) (i j : nat) : R := match a with V v => vget v i | M A => mget A i j end.
Definition shaped (n k : nat) (a : arr) : Prop := match a with V v => is_vec n v /\ k = 1 | M A => is_mat n k A end.
Definition same_kind (a b : arr) : Prop := match a, b with V _, V _ => True | M _, M _ => True | _, _ => False end.

(* the entries and weights of a basis object *)
Definition b_entries (b : basis) : option mat := match b with BLin l => Some (lb_entries l) | BPod p => p_entries p end.
Definition b_weights (b : basis) : option weight := match b with BLin l => lb_weights l | BPod p => p_weights p end.
(* the weight matrix: the identity if there are no weights *)
Definition wget (W : option weight) (i j : nat) : R :=
  match W with
  | None => if i =? j then 1%R else 0%R
  | Some (WDiag w) => if i =? j then vget w i else 0%R
  | Some (WMat A) => mget A i j
  end.
Definition ok_weight (n : nat) (W : option weight) : Prop :=
  match W with None => True | Some (WDiag w) => is_vec n w | Some (WMat A) => is_mat n n A end.
(* x' W y *)
Definition wip (n : nat) (W : option weight) (x y : nat -> R) : R := bsum n (fun i => bsum n (fun j => x i * wget W i j * y j))%R.
Definition w_symmetric (n : nat) (W : option weight) : Prop := forall i j, i < n -> j < n -> wget W i j = wget W j i.
Definition w_nonneg (n : nat) (W : option weight) : Prop := forall x, (0 <= wip n W x x)%R.
(* V' W V = I, for r columns *)
Definition w_orthonormal (n r : nat) (W : option weight) (A : mat) : Prop :=
  forall a b, a < r -> b < r -> wip n W (fun i => mget A i a) (fun i => mget A i b) = if a =? b then 1%R else 0%R.
(* sum_b V_ib y_b *)
Definition span (r : nat) (A : mat) (y : nat -> R) (i : nat) : R := bsum r (fun b => mget A i b * y b)%R.
(* a basis with n rows, r columns and these weights *)
Definition basis_of (n r : nat) (W : option weight) (A : mat) (b : basis) : Prop :=
  0 < n /\ 0 < r /\ is_mat n r A /\ ok_weight n W /\ b_entries b = Some A /\ b_weights b = W.
Definition b_project (b : basis) : arr -> res arr := project b_compress b_decompress b.
Definition b_error (b : basis) : arr -> bool -> res R := projection_error b_compress b_decompress b.
(* a member of a multi-variable basis: its recorded dimensions are those of its entries *)
Definition member (n r : nat) (b : basis) : Prop := b_n b = Some n /\ b_r b = Some r /\ exists A W, basis_of n r W A b.
(* b_1, b_2, ... are members with n_1, n_2, ... rows and r_1, r_2, ... columns *)
Fixpoint members (ns rs : list nat) (bs : list basis) : Prop :=
  match ns, rs, bs with
  | [], [], [] => True
  | n :: ns', r :: rs', b :: bs' => member n r b /\ members ns' rs' bs'
  | _, _, _ => False
  end.
(* every member is orthonormal in its own weights *)
Definition orthonormal (b : basis) : Prop := exists n r W A, basis_of n r W A b /\ w_orthonormal n r W A.

(* energies of a list of singular values *)
Definition tot2 (s : vec) : R := bsum (length s) (fun i => Rsqr (vget s i)).
Definition kept (s : vec) (r : nat) : R := (bsum r (fun i => Rsqr (vget s i)) / tot2 s)%R.
Definition lost (s : vec) (r : nat) : R := (bsum (length s - r) (fun i => Rsqr (vget s (r + i))) / tot2 s)%R.
(* r is the smallest number between 1 and m with property P, or m if there is none *)
Definition least_upto (m : nat) (P : nat -> Prop) (r : nat) : Prop :=
  1 <= r <= m /\ (forall j, 1 <= j < r -> ~ P j) /\ (P r \/ r = m).
(* r is the smallest number with property P *)
Definition least (P : nat -> Prop) (r : nat) : Prop := P r /\ forall j, j < r -> ~ P j.
Definition decreasing (s : vec) : Prop := forall i j, i <= j -> j < length s -> (vget s j <= vget s i)%R.
Definition by_num z := {| a_num := Some z; a_sval := None; a_cum := None; a_res := None; a_proj := None |}.
Definition by_sval e := {| a_num := None; a_sval := Some e; a_cum := None; a_res := None; a_proj := None |}.
Definition by_cum e := {| a_num := None; a_sval := None; a_cum := Some e; a_res := None; a_proj := None |}.
Definition by_res e := {| a_num := None; a_sval := None; a_cum := None; a_res := Some e; a_proj := None |}.
Definition by_proj e := {| a_num := None; a_sval := None; a_cum := None; a_res := None; a_proj := Some e |}.
(* q is a PODBasis just after fit(), set_dimension() or from_svd() returned, with criterion c in force *)
Definition dimensioned (X : ext) (c : crit) (q : pod) : Prop :=
  (exists p st, p_crit p = c /\ pod_fit X st p = (q, None)) \/
  (exists p a, pick a = Ok c /\ p_svals p <> None /\ set_dimension a p = (q, None)) \/
  (exists L s Rt a mx W nm, pick a = Ok c /\ from_svd X L s Rt a mx W nm = Ok q).
(* it stores the singular values s and m left vectors of length n *)
Definition stores (q : pod) (s : vec) (n m : nat) : Prop :=
  exists L, p_svals q = Some s /\ p_left q = Some L /\ is_mat n m L /\ 0 < n.
(* its basis has r columns, the first r stored vectors *)
Definition keeps (q : pod) (r : nat) : Prop := exists L, p_left q = Some L /\ p_r q = Some (Z.of_nat r) /\ r <= ncols L /\ p_entries q = Some (map (firstn r) L).

(* what a user can do to a PODBasis *)
Inductive pod_op := OFit (st : snaps) | ODim (a : critargs) | OSetR (z : Z).
Definition pod_step (X : ext) (o : pod_op) (p : pod) : out :=
  match o with OFit st => pod_fit X st p | ODim a => set_dimension a p | OSetR z => set_r z p end.
(* the object after these operations, all of which returned *)
Fixpoint pod_run (X : ext) (os : list pod_op) (p : pod) : option pod :=
  match os with
  | [] => Some p
  | o :: os' => match pod_step X o p with (q, None) => pod_run X os' q | (_, Some _) => None end
  end.
(* number of vectors asked for is not negative *)
Definition nonneg_args (a : critargs) : Prop := match a_num a with Some z => (0 <= z)%Z | None => True end.
(* snapshots form a nonempty rectangular array *)
Definition proper_snaps (st : snaps) : Prop := exists Q n k, snap_mat st = Ok Q /\ is_mat n k Q /\ 0 < n /\ 0 < k.
Definition proper_op (o : pod_op) : Prop := match o with OFit st => proper_snaps st | ODim a => nonneg_args a | OSetR z => (0 <= z)%Z end.
Definition is_fit (o : pod_op) : bool := match o with OFit _ => true | _ => false end.
(* the SVD engine of p returns rectangular left factors with one row per row of the data *)
Definition rectangular (X : ext) (p : pod) : Prop :=
  forall n k keep Q L s Rt, is_mat n k Q -> 0 < n -> 0 < k -> pod_svd X p keep Q = Ok (L, s, Rt) -> exists m, is_mat n m L.
(* two objects that differ at most in the remembered criterion *)
Definition same_but_crit (p q : pod) : Prop := pod_with_crit (p_crit q) p = q.

(* Q = L diag(s) Rt with weight-orthonormal columns of L, orthonormal rows of Rt and decreasing nonnegative s *)
Definition wsvd (n k p : nat) (W : option weight) (Q L : mat) (s : vec) (Rt : mat) : Prop :=
  is_mat n p L /\ is_vec p s /\ is_mat p k Rt /\ w_orthonormal n p W L /\
  (forall i j, i < p -> j < p -> bsum k (fun l => mget Rt i l * mget Rt j l)%R = if i =? j then 1%R else 0%R) /\
  (forall i, i < p -> (0 <= vget s i)%R) /\ decreasing s /\
  (forall t l, t < n -> l < k -> mget Q t l = bsum p (fun i => vget s i * (mget L t i * mget Rt i l))%R).
(* squared norm of an n x k matrix whose columns are measured in the weights *)
Definition wnorm2 (n k : nat) (W : option weight) (A : mat) : R := bsum k (fun l => wip n W (fun t => mget A t l) (fun t => mget A t l)).
(* scipy.linalg.eigh: eigenvalues in increasing order and orthonormal eigenvectors, for a symmetric matrix *)
Definition eigh_spec (eigh : mat -> res (vec * mat)) : Prop :=
  forall k G vals E, 0 < k -> is_mat k k G -> (forall i j, i < k -> j < k -> mget G i j = mget G j i) -> eigh G = Ok (vals, E) ->
    is_vec k vals /\ is_mat k k E /\
    (forall i j, i <= j -> j < k -> (vget vals i <= vget vals j)%R) /\
    (forall a b, a < k -> b < k -> bsum k (fun i => mget E i a * mget E i b)%R = if a =? b then 1%R else 0%R) /\
    (forall i j, i < k -> j < k -> mget G i j = bsum k (fun a => vget vals a * (mget E i a * mget E j a))%R).
(* scipy.linalg.sqrtm of a symmetric positive semidefinite matrix: a symmetric square root *)
Definition sqrtm_spec (sqrtm : mat -> res mat) : Prop :=
  forall n A B, is_mat n n A -> w_symmetric n (Some (WMat A)) -> w_nonneg n (Some (WMat A)) -> sqrtm A = Ok B ->
    is_mat n n B /\ (forall i j, i < n -> j < n -> mget B i j = mget B j i) /\
    (forall i j, i < n -> j < n -> mget A i j = bsum n (fun l => mget B i l * mget B l j)%R).
(* scipy.linalg.cho_factor / cho_solve: the factorization returns only for nonsingular matrices, and solves the system *)
Definition chol_spec (chof : mat -> res mat) (chos : mat -> mat -> res mat) : Prop :=
  forall n B C, is_mat n n B -> chof B = Ok C ->
    (forall v, (forall i, i < n -> bsum n (fun l => mget B i l * v l)%R = 0%R) -> forall i, i < n -> v i = 0%R) /\
    (forall p A Y, is_mat n p A -> chos C A = Ok Y -> is_mat n p Y /\ forall i j, i < n -> j < p -> bsum n (fun l => mget B i l * mget Y l j)%R = mget A i j).
(* the SVD routine chosen by the svdsolver argument is exact *)
Definition exact_solver (X : ext) (sv : solver) : Prop :=
  match sv with
  | SDense => SpecLstsq.svd_spec (x_svd X)
  | SCustom f => SpecLstsq.svd_spec f
  | SRandom | SSnap _ => False
  end.
(* weights for which the square-root routines are specified *)
Definition spd_weight (X : ext) (W : option weight) : Prop :=
  match W with
  | Some (WMat A) => (exists n, is_mat n n A /\ w_symmetric n W /\ w_nonneg n W) /\ sqrtm_spec (x_sqrtm X) /\ chol_spec (x_chof X) (x_chos X)
  | _ => True
  end.
(* lam lists, in decreasing order, the eigenvalues of the Gramian Q'WQ/k: there is an orthonormal basis E of eigenvectors *)
Definition gram_eigs (n k : nat) (W : option weight) (Q : mat) (lam : vec) : Prop :=
  length lam = k /\ decreasing lam /\ exists E : mat,
    (forall a b, a < k -> b < k -> bsum k (fun i => mget E i a * mget E i b)%R = if a =? b then 1%R else 0%R) /\
    (forall i j, i < k -> j < k -> (wip n W (fun t => mget Q t i) (fun t => mget Q t j) / INR k)%R = bsum k (fun a => vget lam a * (mget E i a * mget E j a))%R).
(* squared size of Q - L diag(s) Rt *)
Definition resid2 (n k : nat) (W : option weight) (Q L : mat) (s : vec) (Rt : mat) : R :=
  bsum k (fun l => wip n W (fun t => mget Q t l - bsum (length s) (fun i => vget s i * (mget L t i * mget Rt i l)))%R
                           (fun t => mget Q t l - bsum (length s) (fun i => vget s i * (mget L t i * mget Rt i l)))%R).
(* no nonzero vector has zero weighted size *)
Definition w_definite (n : nat) (W : option weight) : Prop := forall x, wip n W x x = 0%R -> forall i, i < n -> x i = 0%R.

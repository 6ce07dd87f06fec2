(* NumPy.v -- the NumPy / SciPy array primitives the code calls, over lists of reals.
   (numpy/scipy themselves are not in /repo; these are their documented meanings for arrays of
   matching shapes.  Shape errors numpy would raise are modelled where the code relies on them.) *)
From Verif Require Export Spec.

Definition bind {A B} (x : res A) (f : A -> res B) : res B :=
  match x with Ok a => f a | Err e => Err e end.
Notation "'do' x <- e1 ; e2" := (bind e1 (fun x => e2))
  (at level 200, x name, e1 at level 100, e2 at level 200).
(* raise e if b, else continue *)
Definition guard (b : bool) (e : err) : res unit := if b then Err e else Ok tt.
Notation "'raise_if' b 'with' e ';;' k" := (if b then Err e else k)
  (at level 200, b at level 100, e at level 100, k at level 200).

Fixpoint map2 {A B C} (f : A -> B -> C) (u : list A) (v : list B) : list C :=
  match u, v with
  | a :: u', b :: v' => f a b :: map2 f u' v'
  | _, _ => nil
  end.

(* [f x for x in l] where f may raise *)
Fixpoint mapM {A B} (f : A -> res B) (l : list A) : res (list B) :=
  match l with
  | nil => Ok nil
  | a :: l' => match f a with
               | Err e => Err e
               | Ok b => match mapM f l' with Err e => Err e | Ok bs => Ok (b :: bs) end
               end
  end.

Definition vadd (u v : vec) : vec := map2 Rplus u v.
Definition vsub (u v : vec) : vec := map2 Rminus u v.
Definition vmul (u v : vec) : vec := map2 Rmult u v.
Definition vscale (a : R) (v : vec) : vec := map (Rmult a) v.

(* number of columns, M.shape[1] *)
Definition ncols (M : mat) : nat := match M with nil => 0%nat | r :: _ => List.length r end.
Definition nrows (M : mat) : nat := List.length M.

Definition madd (A B : mat) : mat := map2 vadd A B.
Definition msub (A B : mat) : mat := map2 vsub A B.
Definition mscale (a : R) (A : mat) : mat := map (vscale a) A.

(* u @ v for one-dimensional arrays *)
Fixpoint dot (u v : vec) : R :=
  match u, v with
  | a :: u', b :: v' => a * b + dot u' v'
  | _, _ => 0
  end.

(* M.T *)
Definition mT (M : mat) : mat := map (fun j => map (fun row => nth j row 0) M) (seq 0 (ncols M)).
(* M @ v *)
Definition matvec (M : mat) (v : vec) : vec := map (fun row => dot row v) M.
(* A @ B *)
Definition matmul (A B : mat) : mat := map (fun row => map (dot row) (mT B)) A.
(* np.eye(n) *)
Definition eye (n : nat) : mat :=
  map (fun i => map (fun j => if Nat.eqb i j then 1 else 0) (seq 0 n)) (seq 0 n).
(* np.diag(v) *)
Definition mdiag (v : vec) : mat :=
  map (fun i => map (fun j => if Nat.eqb i j then nth i v 0 else 0) (seq 0 (List.length v)))
      (seq 0 (List.length v)).
(* np.zeros *)
Definition vzeros (n : nat) : vec := repeat 0 n.
Definition mzeros (r c : nat) : mat := repeat (repeat 0 c) r.

(* l[locs] for an integer index list (indices in range) *)
Definition take_at {A} (d : A) (l : list A) (locs : list nat) : list A :=
  map (fun i => nth i l d) locs.

(* l[a:b] *)
Definition slice {A} (a b : nat) (l : list A) : list A := firstn (b - a) (skipn a l).

(* columns a:b of a matrix *)
Definition mcols (a b : nat) (M : mat) : mat := map (slice a b) M.

(* np.hstack of two / many, np.vstack (= row concatenation) *)
Definition hcat (A B : mat) : mat := map2 (@app R) A B.
Definition hstack (l : list mat) : mat :=
  match l with
  | nil => nil
  | M :: l' => fold_left hcat l' M
  end.
Definition vstack (l : list mat) : mat := List.concat l.

(* np.kron of vectors *)
Definition kronv (u v : vec) : vec := List.concat (map (fun a => vscale a v) u).
(* np.kron of matrices *)
Definition kronm (A B : mat) : mat :=
  List.concat (map (fun ra => map (fun rb => kronv ra rb) B) A).

(* np.mean(v) *)
Definition vmean (v : vec) : R := lsum v / INR (List.length v).

(* np.cumsum *)
Fixpoint cumsum_from (a : nat) (l : list nat) : list nat :=
  match l with nil => nil | x :: l' => (a + x)%nat :: cumsum_from (a + x)%nat l' end.
Definition cumsum (l : list nat) : list nat := cumsum_from 0 l.

Definition lsumn (l : list nat) : nat := fold_right Nat.add 0%nat l.

(* ||.||_2^2 of a vector and Frobenius^2 of a matrix *)
Definition vnorm2 (v : vec) : R := lsum (map (fun x => x * x) v).
Definition mnorm2 (M : mat) : R := lsum (map vnorm2 M).

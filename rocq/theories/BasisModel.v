(* BasisModel.v -- dimension reduction: basis/_base.py, basis/_linear.py, basis/_pod.py, basis/_multi.py.
   Scalars are reals.  Where numpy would put inf or nan in an array the model stops with OtherError.  SciPy /
   scikit-learn routines are the fields of the record [ext].  Warnings are left out, except that the condition of the
   orthogonality warning is the function [not_orthogonal].  Plotting and printing are not modelled; verify() is in VerifyModel.v.
   No proofs here. *)
From Coq Require Import ZArith String.
From Verif Require Export PreModel.
#[local] Open Scope nat_scope.
#[local] Open Scope list_scope.

(* ---- LinearBasis ------------------------------------------------------------------------------------------ *)
(* weights: a one-dimensional array w stands for diag(w) (_linear.py:91-93); otherwise a two-dimensional array *)
Inductive weight := WDiag (w : vec) | WMat (W : mat).
(* self.weights @ state: _linear.py:160 *)
Definition wmul (w : weight) (a : arr) : res arr :=
  match w with
  | WDiag v => if alen a =? length v then Ok (rowop Rmult v a) else Err ValueError
  | WMat W => matdot W a
  end.
Definition wmul_opt (w : option weight) (a : arr) : res arr := match w with None => Ok a | Some w' => wmul w' a end.
(* @requires_entries, _linear.py:138 / 163 *)
Definition need {A} (x : option A) : res A := match x with None => Err AttributeError | Some a => Ok a end.
(* A @ q where A has c columns.  (A may have no rows, so its width is passed along.) *)
Definition dot_at (c : nat) (A : mat) (q : arr) : res arr :=
  match q with
  | V v => if length v =? c then Ok (V (matvec A v)) else Err ValueError
  | M B => if length B =? c then Ok (M (matmul A B)) else Err ValueError
  end.
(* LinearBasis.compress: _linear.py:159-161 *)
Definition lin_compress (E : option mat) (W : option weight) (a : arr) : res arr :=
  do A <- need E; do wa <- wmul_opt W a; dot_at (nrows A) (mT A) wa.
(* entries[locs]: integer arrays and slices with step 1 *)
Definition rows_at (A : mat) (l : locsel) : res mat :=
  match l with
  | LIdx idx => do js <- mapM (norm_index (length A)) idx; Ok (take_at [] A js)
  | LSlice s => Ok (py_slice (p_start s) (p_stop s) A)
  end.
(* x[locs] of an array *)
Definition arr_at (a : arr) (l : locsel) : res arr :=
  match a with
  | M A => do B <- rows_at A l; Ok (M B)
  | V v => match l with
           | LIdx idx => do w <- vtake v idx; Ok (V w)
           | LSlice s => Ok (V (py_slice (p_start s) (p_stop s) v))
           end
  end.
(* LinearBasis.decompress: _linear.py:188-189 *)
Definition lin_decompress (E : option mat) (q : arr) (locs : option locsel) : res arr :=
  do A <- need E;
  do Vr <- match locs with None => Ok A | Some l => rows_at A l end;
  dot_at (ncols A) Vr q.
(* V.T @ W @ V  and the condition of the warning: _linear.py:99-103 *)
Definition gram (A : mat) (W : option weight) : res mat :=
  do WA <- wmul_opt W (M A);
  do G <- dot_at (nrows A) (mT A) WA; match G with M B => Ok B | V _ => Err ValueError end.
Definition not_orthogonal (A : mat) (W : option weight) : res bool :=
  do G <- gram A W; Ok (negb (allclose G (eye (ncols A)))).

(* LinearBasis.__init__: _linear.py:68-103.  lb_n is the full_state_dimension property, which BasisMulti overwrites. *)
Record lb := { lb_entries : mat; lb_weights : option weight; lb_n : option nat; lb_r : nat; lb_name : option pystr }.
Definition lb_init (A : mat) (W : option weight) (check : bool) (name : option pystr) : res lb :=
  do _ <- (if check then do _ <- not_orthogonal A W; Ok tt else Ok tt);
  Ok {| lb_entries := A; lb_weights := W; lb_n := Some (nrows A); lb_r := ncols A; lb_name := name |}.

(* ---- projection: _base.py:181, 210-213, for any class with compress and decompress ------------------------------------- *)
Definition project {B} (comp : B -> arr -> res arr) (decomp : B -> arr -> option locsel -> res arr) (b : B) (a : arr) : res arr :=
  do q <- comp b a; decomp b q None.
Definition fro (a : arr) : R := match a with V v => sqrt (vnorm2 v) | M A => sqrt (mnorm2 A) end.     (* la.norm *)
Definition asub (a b : arr) : res arr :=                       (* state - ...; broadcasting of unequal shapes is not modelled *)
  match a, b with
  | V u, V v => if length u =? length v then Ok (V (vsub u v)) else Err ValueError
  | M A, M B => if (nrows A =? nrows B) && (ncols A =? ncols B) then Ok (M (msub A B)) else Err ValueError
  | _, _ => Err ValueError
  end.
Definition projection_error {B} comp decomp (b : B) (a : arr) (relative : bool) : res R :=
  do p <- project comp decomp b a;
  do d <- asub a p;
  if relative then (if Req_EM_T (fro a) 0 then Err OtherError else Ok (fro d / fro a)%R) else Ok (fro d).

(* ---- PODBasis -------------------------------------------------------------------------------------------------------- *)
(* routines of SciPy / scikit-learn *)
Record ext := { x_svd : mat -> res (mat * vec * mat);          (* la.svd(A, full_matrices=False) *)
                x_rsvd : nat -> mat -> res (mat * vec * mat);  (* sklearn randomized_svd(A, n_components=k) *)
                x_eigh : mat -> res (vec * mat);               (* la.eigh: eigenvalues in increasing order, eigenvectors *)
                x_sqrtm : mat -> res mat;                      (* la.sqrtm *)
                x_chof : mat -> res mat;                       (* la.cho_factor *)
                x_chos : mat -> mat -> res mat }.              (* la.cho_solve *)
Definition rltb (a b : R) : bool := if Rlt_dec a b then true else false.
(* l[mask] for a boolean mask *)
Definition mask {A} (m : list bool) (l : list A) : list A := map snd (filter fst (combine m l)).

(* method_of_snapshots: _pod.py:104-134.  A one-dimensional inner_product_matrix must have one entry per row
   (numpy would also broadcast an array of length one). *)
Definition method_of_snapshots (X : ext) (minthresh : R) (W : option weight) (Q : mat) : res (mat * vec * mat) :=
  let k := ncols Q in
  raise_if (k =? 0) with OtherError;;
  do WQ <- wmul_opt W (M (mscale (/ INR k) Q));
  match WQ with
  | V _ => Err ValueError
  | M WQ' =>
      do G <- matmul_r (mT Q) WQ';
      do e <- x_eigh X G;
      let vals := rev (fst e) in
      let vecs := map (@rev R) (snd e) in
      do lo <- vmin vals;
      let positives := map (fun x => rltb (Rmax minthresh (Rabs lo)) x) vals in
      let vecs' := map (mask positives) vecs in
      let vals' := mask positives vals in
      let svals := map (fun x => sqrt (x * INR k)) vals' in
      Ok (matmul Q (map (fun row => map2 Rdiv row svals) vecs'), svals, mT vecs')
  end.

Inductive solver := SDense | SRandom | SSnap (minthresh : R) | SCustom (f : mat -> res (mat * vec * mat)).
Inductive crit := CNum (r : Z) | CSval (e : R) | CCum (e : R) | CRes (e : R) | CProj (e : R).
Record critargs := { a_num : option Z; a_sval : option R; a_cum : option R; a_res : option R; a_proj : option R }.
(* _set_dimension_selection_criterion: _pod.py:490-519 *)
Definition pick (a : critargs) : res crit :=
  match a_num a, a_sval a, a_cum a, a_res a, a_proj a with
  | Some z, _, _, _, _ => Ok (CNum z)
  | None, Some e, _, _, _ => Ok (CSval e)
  | None, None, Some e, _, _ => Ok (CCum e)
  | None, None, None, Some e, _ => Ok (CRes e)
  | None, None, None, None, Some e => Ok (CProj e)
  | None, None, None, None, None => Err ValueError
  end.
Inductive sqrtw := QDiag (w : vec) | QMat (B C : mat).      (* sqrt_weights, with its Cholesky factor *)
(* the attributes of a PODBasis object.  p_r can be negative only before fit(). *)
Record pod := mkpod { p_name : option pystr; p_crit : crit; p_est : bool; p_max : option nat; p_solver : solver;
                      p_weights : option weight; p_sqrtw : option sqrtw;
                      p_left : option mat; p_svals : option vec; p_right : option mat;
                      p_cum : option R; p_res : option R; p_entries : option mat; p_n : option nat; p_r : option Z }.
Definition pod_with_crit (c : crit) (p : pod) : pod :=
  mkpod (p_name p) c (p_est p) (p_max p) (p_solver p) (p_weights p) (p_sqrtw p) (p_left p) (p_svals p) (p_right p)
        (p_cum p) (p_res p) (p_entries p) (p_n p) (p_r p).
Definition pod_with_r (r : Z) (p : pod) : pod :=
  mkpod (p_name p) (p_crit p) (p_est p) (p_max p) (p_solver p) (p_weights p) (p_sqrtw p) (p_left p) (p_svals p) (p_right p)
        (p_cum p) (p_res p) (p_entries p) (p_n p) (Some r).
Definition pod_with_est (b : bool) (p : pod) : pod :=
  mkpod (p_name p) (p_crit p) b (p_max p) (p_solver p) (p_weights p) (p_sqrtw p) (p_left p) (p_svals p) (p_right p)
        (p_cum p) (p_res p) (p_entries p) (p_n p) (p_r p).
Definition pod_with_n (n : nat) (p : pod) : pod :=
  mkpod (p_name p) (p_crit p) (p_est p) (p_max p) (p_solver p) (p_weights p) (p_sqrtw p) (p_left p) (p_svals p) (p_right p)
        (p_cum p) (p_res p) (p_entries p) (Some n) (p_r p).
Definition pod_with_name (nm : option pystr) (p : pod) : pod :=
  mkpod nm (p_crit p) (p_est p) (p_max p) (p_solver p) (p_weights p) (p_sqrtw p) (p_left p) (p_svals p) (p_right p)
        (p_cum p) (p_res p) (p_entries p) (p_n p) (p_r p).
Definition pod_with_svd (L : mat) (s : option vec) (Rt : option mat) (p : pod) : pod :=
  mkpod (p_name p) (p_crit p) (p_est p) (p_max p) (p_solver p) (p_weights p) (p_sqrtw p) (Some L) s Rt
        (p_cum p) (p_res p) (p_entries p) (p_n p) (p_r p).
(* LinearBasis.__init__(entries=E, ...) on an existing PODBasis, and the two energies: _pod.py:549-559 *)
Definition pod_with_entries (E : mat) (cum : R) (p : pod) : pod :=
  mkpod (p_name p) (p_crit p) (p_est p) (p_max p) (p_solver p) (p_weights p) (p_sqrtw p) (p_left p) (p_svals p) (p_right p)
        (Some cum) (Some (1 - cum)%R) (Some E) (Some (nrows E)) (Some (Z.of_nat (ncols E))).

(* PODBasis.__init__: _pod.py:257-305 *)
Definition pod_init (X : ext) (a : critargs) (maxv : option Z) (sv : solver) (W : option weight) (name : option pystr) : res pod :=
  do c <- pick a;
  do mx <- match maxv with
           | None => Ok None
           | Some z => if (z <=? 0)%Z then Err ValueError else Ok (Some (Z.to_nat z))
           end;
  do sw <- match W, sv with
           | None, _ => Ok None
           | _, SSnap _ => Ok None
           | Some (WDiag w), _ => if forallb (fun x => rleb 0 x) w then Ok (Some (QDiag (map sqrt w))) else Err OtherError
           | Some (WMat A), _ => do B <- x_sqrtm X A; do C <- x_chof X B; Ok (Some (QMat B C))
           end;
  Ok (mkpod name c false mx sv W sw None None None None None None None None).

(* a statement that may raise, together with the object it leaves behind *)
Definition out := (pod * option err)%type.
Definition sqv (v : vec) : vec := map (fun x => x * x)%R v.
(* A[:, :z] *)
Definition cols_to (z : Z) (A : mat) : mat := map (py_slice None (Some z)) A.
(* the reduced_state_dimension setter: _pod.py:521-559 *)
Definition set_r (z : Z) (p : pod) : out :=
  match p_svals p, p_left p with
  | None, _ => (pod_with_r z (pod_with_crit (CNum z) p), None)
  | Some _, None => (p, Some AttributeError)
  | Some s, Some L =>
      let k := Z.of_nat (ncols L) in
      let z' := if (k <? z)%Z then k else z in
      let p1 := pod_with_r z' p in
      let tot := lsum (sqv s) in
      if Req_EM_T tot 0 then (p1, Some OtherError)
      else
        let E := cols_to z' L in
        let p2 := pod_with_entries E (lsum (py_slice None (Some z') (sqv s)) / tot)%R p1 in
        (p2, match not_orthogonal E (p_weights p) with Ok _ => None | Err e => Some e end)
  end.

(* np.cumsum(svdvals2) / np.sum(svdvals2): _pod.py:566 *)
Fixpoint cumsumR (a : R) (l : vec) : vec := match l with [] => [] | x :: l' => (a + x)%R :: cumsumR (a + x)%R l' end.
Definition energy (s : vec) : vec := map (fun x => x / lsum (sqv s))%R (cumsumR 0 (sqv s)).
(* np.count_nonzero(f(l)) *)
Definition countb {A} (f : A -> bool) (l : list A) : nat := length (filter f l).
(* np.searchsorted(l, x) of a nondecreasing array: the number of entries smaller than x *)
Definition searchsorted (l : vec) (x : R) : nat := countb (fun y => rltb y x) l.
(* _set_dimension_from_criterion: _pod.py:563-597 *)
Definition rank_of (c : crit) (s : vec) : Z :=
  match c with
  | CNum z => z
  | CSval e => Z.of_nat (countb (fun x => rleb e x) s)
  | CCum e => Z.of_nat (searchsorted (energy s) e + 1)
  | CRes e => Z.of_nat (countb (fun x => rleb e (1 - x)) (energy s) + 1)
  | CProj e => Z.of_nat (countb (fun x => rleb e (sqrt (1 - x))) (energy s) + 1)
  end.
Definition from_criterion (p : pod) : out :=
  match p_svals p with
  | None => (p, Some TypeError)
  | Some s => if Req_EM_T (lsum (sqv s)) 0 then (p, Some OtherError) else set_r (rank_of (p_crit p) s) p
  end.
(* set_dimension: _pod.py:633-646 *)
Definition set_dimension (a : critargs) (p : pod) : out :=
  match pick a with
  | Err e => (p, Some e)
  | Ok c => let p1 := pod_with_crit c p in
            match p_svals p with None => (p1, None) | Some _ => from_criterion p1 end
  end.
(* np.sort(l)[::-1] *)
Fixpoint insert_desc (x : R) (l : vec) : vec :=
  match l with [] => [x] | y :: l' => if rleb y x then x :: y :: l' else y :: insert_desc x l' end.
Fixpoint sort_desc (l : vec) : vec := match l with [] => [] | x :: l' => insert_desc x (sort_desc l') end.
(* np.sort(svdvals)[::-1] / svdvals[0] *)
Definition normalized (s : vec) : res vec :=
  match sort_desc s with
  | [] => Err IndexError
  | s0 :: _ => if Req_EM_T s0 0 then Err OtherError else Ok (map (fun x => x / s0)%R (sort_desc s))
  end.
(* _store_svd: _pod.py:653-656.  leftvecs are stored before the singular values are looked at. *)
Definition store_svd (L : mat) (s : vec) (Rt : option mat) (p : pod) : out :=
  match normalized s with
  | Err e => (pod_with_svd L (p_svals p) (p_right p) p, Some e)
  | Ok s' => (pod_with_svd L (Some s') Rt p, None)
  end.
Definition andthen (o : out) (f : pod -> out) : out := match o with (p, None) => f p | (p, Some e) => (p, Some e) end.

(* fit: _pod.py:666-730 *)
Inductive snaps := S2 (Q : mat) | S3 (Qs : list mat).          (* a matrix, or a three-dimensional array *)
Definition snap_mat (st : snaps) : res mat :=
  match st with
  | S2 Q => Ok Q
  | S3 Qs => if all_same (map nrows Qs) && negb (length Qs =? 0) then Ok (hstack Qs) else Err ValueError
  end.
Definition sqw_len (w : sqrtw) : nat := match w with QDiag v => length v | QMat B _ => nrows B end.
Definition sqw_mul (w : sqrtw) (Q : mat) : res mat :=
  match w with QDiag v => Ok (map2 (fun row x => map (Rmult x) row) Q v) | QMat B _ => matmul_r B Q end.
Definition sqw_solve (X : ext) (w : sqrtw) (A : mat) : res mat :=
  match w with
  | QDiag v => if forallb isnz v then Ok (map2 (fun row x => map (Rmult (/ x)) row) A v) else Err OtherError
  | QMat _ C => x_chos X C A
  end.
Definition engine (X : ext) (p : pod) (keep : nat) (Q : mat) : res (mat * vec * mat) :=
  match p_solver p with
  | SDense => x_svd X Q
  | SRandom => x_rsvd X keep Q
  | SSnap th => method_of_snapshots X th (p_weights p) Q
  | SCustom f => f Q
  end.
Definition pod_svd (X : ext) (p : pod) (keep : nat) (Q : mat) : res (mat * vec * mat) :=
  match p_sqrtw p with
  | None => engine X p keep Q
  | Some w => raise_if negb (nrows Q =? sqw_len w) with DimensionalityError;;
              do WQ <- sqw_mul w Q;
              do t <- engine X p keep WQ;
              let '(L, s, Rt) := t in do L' <- sqw_solve X w L; Ok (L', s, Rt)
  end.
Definition pod_fit (X : ext) (st : snaps) (p : pod) : out :=
  match snap_mat st with
  | Err e => (p, Some e)
  | Ok Q =>
      let rmax := Nat.min (nrows Q) (ncols Q) in
      let keep := match p_max p with None => rmax | Some m => Nat.min m rmax end in
      let p1 := pod_with_est (match p_solver p with SRandom => keep <? rmax | _ => false end) p in
      match pod_svd X p keep Q with
      | Err e => (p1, Some e)
      | Ok (L, s, Rt) =>
          andthen (store_svd (mcols 0 keep L) s (Some (mT (firstn keep Rt))) p1) from_criterion
      end
  end.
(* from_svd: _pod.py:342-368 *)
Definition from_svd (X : ext) (L : mat) (s : vec) (Rt : option mat) (a : critargs) (maxv : option Z)
    (W : option weight) (name : option pystr) : res pod :=
  let a' := match pick a with Ok _ => a
            | Err _ => {| a_num := Some (Z.of_nat (ncols L)); a_sval := None; a_cum := None; a_res := None; a_proj := None |} end in
  do p <- pod_init X a' maxv SDense W name;
  match andthen (store_svd L s Rt p) from_criterion with (q, None) => Ok q | (_, Some e) => Err e end.
Definition pod_compress (p : pod) : arr -> res arr := lin_compress (p_entries p) (p_weights p).
Definition pod_decompress (p : pod) : arr -> option locsel -> res arr := lin_decompress (p_entries p).

(* ---- functional API: _pod.py:1078-1103, 1140-1147, 1248-1256, 1364-1374 ------------------------------------------------ *)
Definition no_crit (a : critargs) : bool := match pick a with Ok _ => false | Err _ => true end.
Definition pod_basis (X : ext) (Q : mat) (a : critargs) (sv : solver) (W : option weight) : res (mat * vec * mat) :=
  let a' := if no_crit a
            then {| a_num := Some (Z.of_nat (Nat.min (nrows Q) (ncols Q))); a_sval := None; a_cum := None; a_res := None; a_proj := None |}
            else a in
  do p <- pod_init X a' None sv W None;
  match pod_fit X (S2 Q) p with
  | (q, None) => do E <- need (p_entries q); do s <- need (p_svals q); do Rt <- need (p_right q);
                 Ok (E, s, map (py_slice None (p_r q)) Rt)
  | (_, Some e) => Err e
  end.
(* a zero threshold is falsy and returns None *)
Definition thresholded (t : R) (r : nat) : option nat := if Req_EM_T t 0 then None else Some r.
Definition svdval_decay (s : vec) (t : R) : res (option nat) :=
  do s' <- normalized s; Ok (thresholded t (countb (fun x => rltb t x) s')).
Definition sorted_energy (s : vec) : res vec :=
  if Req_EM_T (lsum (sqv (sort_desc s))) 0 then Err OtherError else Ok (energy (sort_desc s)).
Definition cumulative_energy (s : vec) (t : R) : res (option nat) :=
  do e <- sorted_energy s; Ok (thresholded t (searchsorted (0%R :: e) t)).
Definition residual_energy (s : vec) (t : R) (root : bool) : res (option nat) :=
  do e <- sorted_energy s;
  let re := 1%R :: map (fun x => 1 - x)%R e in
  let re' := if root then map sqrt re else re in
  Ok (thresholded t (countb (fun x => rltb t x) re')).

(* ---- BasisMulti ------------------------------------------------------------------------------------------------------- *)
Inductive basis := BLin (l : lb) | BPod (p : pod).
Definition b_n (b : basis) : option nat := match b with BLin l => lb_n l | BPod p => p_n p end.
(* (a negative dimension requested before fit() is not a size; it is read as 0) *)
Definition b_r (b : basis) : option nat := match b with BLin l => Some (lb_r l) | BPod p => option_map Z.to_nat (p_r p) end.
Definition b_name (b : basis) : option pystr := match b with BLin l => lb_name l | BPod p => p_name p end.
Definition b_set_n (n : nat) (b : basis) : basis :=                                     (* _base.py:38-40 *)
  match b with
  | BLin l => BLin {| lb_entries := lb_entries l; lb_weights := lb_weights l; lb_n := Some n; lb_r := lb_r l; lb_name := lb_name l |}
  | BPod p => BPod (pod_with_n n p)
  end.
Definition b_set_name (s : pystr) (b : basis) : basis :=
  match b with
  | BLin l => BLin {| lb_entries := lb_entries l; lb_weights := lb_weights l; lb_n := lb_n l; lb_r := lb_r l; lb_name := Some s |}
  | BPod p => BPod (pod_with_name (Some s) p)
  end.
Definition b_compress (b : basis) (a : arr) : res arr :=
  match b with BLin l => lin_compress (Some (lb_entries l)) (lb_weights l) a | BPod p => pod_compress p a end.
Definition b_decompress (b : basis) (q : arr) (locs : option locsel) : res arr :=
  match b with BLin l => lin_decompress (Some (lb_entries l)) q locs | BPod p => pod_decompress p q locs end.
(* fit of one member, on a two-dimensional array *)
Definition b_fit (X : ext) (b : basis) (a : arr) : res basis :=
  match b with
  | BLin l => Ok b
  | BPod p => match a with
              | V _ => Err OtherError                     (* min(states.shape) of a vector, ...: not modelled *)
              | M Q => match pod_fit X (S2 Q) p with (q, None) => Ok (BPod q) | (_, Some e) => Err e end
              end
  end.
(* __init__ and the bases setter: _multi.py:57-65, 73-94 *)
Definition name_default (i : nat) (b : basis) : basis := match b_name b with None => b_set_name (variable_name i) b | Some _ => b end.
Definition mk_bmulti (bs : list basis) (sizes : option (list nat)) : res (list basis) :=
  raise_if (length bs =? 0) with ValueError;;
  let bs' := map2 name_default (seq 0 (length bs)) bs in
  match sizes with
  | None => Ok bs'
  | Some ns => if length ns =? length bs then Ok (map2 b_set_n ns bs') else Err ValueError
  end.
Definition full_sizes (bs : list basis) : option (list nat) := allsome (map b_n bs).
Definition red_sizes (bs : list basis) : option (list nat) := allsome (map b_r bs).
(* _check_shape_full, _check_shape_reduced: _multi.py:178-193 *)
Definition size_check (sizes : option (list nat)) (a : arr) : res unit :=
  match sizes with
  | None => Err AttributeError
  | Some ns => if alen a =? lsumn ns then Ok tt else Err DimensionalityError
  end.
(* _check_is_reduced: _multi.py:214-227.  If only one of the two sizes is known the error message itself cannot be
   formatted (f"{None:d}"), which raises TypeError. *)
Definition is_reduced (bs : list basis) (a : arr) : res bool :=
  let is s := match s with Some ns => alen a =? lsumn ns | None => false end in
  if is (full_sizes bs) then Ok false
  else if is (red_sizes bs) then Ok true
  else match full_sizes bs, red_sizes bs with
       | None, None => Err AttributeError
       | Some _, Some _ => Err DimensionalityError
       | _, _ => Err TypeError
       end.
(* split: _multi.py:247-259, 295-297 *)
Definition bsplit (bs : list basis) (a : arr) : res (list arr) :=
  do red <- is_reduced bs a;
  match (if red then red_sizes bs else full_sizes bs) with
  | None => Err TypeError
  | Some ns => Ok (split_rows ns a)
  end.
(* get_var: _multi.py:276-280 *)
Definition bget_var (bs : list basis) (var : varsel) (a : arr) : res arr :=
  do red <- is_reduced bs a;
  match (if red then red_sizes bs else full_sizes bs) with
  | None => Err TypeError
  | Some ns =>
      let ds := dimsum ns in
      do z <- match var with
              | VIdx z => Ok z
              | VName s => match index_of s (map b_name bs) 0 with Some i => Ok (Z.of_nat i) | None => Err TypeError end
              end;
      do i <- norm_index (length ds) z;
      do j <- norm_index (length ds) (z + 1)%Z;
      Ok (aslice (nth i ds 0) (nth j ds 0) a)
  end.
(* compress, decompress: _multi.py:355-363, 389-401 *)
Definition bm_compress (bs : list basis) (a : arr) : res arr :=
  do _ <- size_check (full_sizes bs) a; do qs <- bsplit bs a; do ys <- zipM b_compress bs qs; aconcat ys.
Definition bm_decompress (bs : list basis) (q : arr) (locs : option locsel) : res arr :=
  do _ <- size_check (red_sizes bs) q;
  do _ <- match locs, full_sizes bs with
          | Some _, Some ns => if all_same ns then Ok tt else Err ValueError
          | _, _ => Ok tt                     (* (unset sizes are all None, hence equal; mixed ones are not modelled) *)
          end;
  do qs <- bsplit bs q;
  do ys <- zipM (fun b x => b_decompress b x locs) bs qs; aconcat ys.
(* fit: _multi.py:318-333 *)
Definition bm_fit (X : ext) (bs : list basis) (a : arr) : res (list basis) :=
  do bs' <- match full_sizes bs with
            | Some _ => Ok bs
            | None => if alen a mod length bs =? 0 then Ok (map (b_set_n (alen a / length bs)) bs) else Err DimensionalityError
            end;
  do _ <- size_check (full_sizes bs') a;
  do qs <- bsplit bs' a;
  zipM (b_fit X) bs' qs.

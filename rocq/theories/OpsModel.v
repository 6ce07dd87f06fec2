(* OpsModel.v -- the non-parametric operator classes with entries set:
   ConstantOperator, LinearOperator, Quadratic/Cubic/QuarticOperator, InputOperator, StateInputOperator.
   Scalars passed for length-one arrays are identified with length-one arrays.  No proofs here. *)
From Verif Require Export TupleModel.
#[local] Open Scope nat_scope.

(* a one- or two-dimensional array argument *)
Inductive arr : Type := V (v : vec) | M (m : mat).

(* an operator whose entries are set (Quadratic/Cubic/Quartic hold compressed entries);
   set_entries itself is in EntriesModel.v *)
Inductive op : Type :=
| OConst (c : vec)                      (* operators/_nonparametric.py:25  *)
| OLin (A : mat)                        (* :192  *)
| OPoly (d : degree) (H : mat)          (* :371, :858, :1326 *)
| OInp (B : mat)                        (* :1825 *)
| OStIn (N : mat).                      (* :1995 *)

Definition op_rows (o : op) : nat :=
  match o with OConst c => length c | OLin A => nrows A | OPoly _ H => nrows H
             | OInp B => nrows B | OStIn N => nrows N end.

(* numpy: A @ v and A @ B raise ValueError when the inner dimensions differ *)
Definition matvec_r (A : mat) (v : vec) : res vec :=
  if ncols A =? length v then Ok (matvec A v) else Err ValueError.
Definition matmul_r (A B : mat) : res mat :=
  if ncols A =? nrows B then Ok (matmul A B) else Err ValueError.
Definition matdot (A : mat) (x : arr) : res arr :=
  match x with
  | V v => match matvec_r A v with Ok w => Ok (V w) | Err e => Err e end
  | M B => match matmul_r A B with Ok w => Ok (M w) | Err e => Err e end
  end.

(* f applied to every entry *)
Definition emap (f : R -> R) (x : arr) : arr :=
  match x with V v => V (map f v) | M m => M (map (map f) m) end.

(* number of columns (last axis) of an array *)
Definition lastdim (x : arr) : nat := match x with V v => length v | M m => ncols m end.
(* np.atleast_2d: a vector becomes one row *)
Definition atleast_2d (x : arr) : mat := match x with V v => [v] | M m => m end.

(* elementwise product of one-dimensional arrays with length-one broadcasting *)
Definition vmul_b (u v : vec) : res vec :=
  if length u =? length v then Ok (vmul u v)
  else if length u =? 1 then Ok (vscale (nth 0 u 0%R) v)
  else if length v =? 1 then Ok (vscale (nth 0 v 0%R) u)
  else Err ValueError.
(* elementwise product of arrays (the single-row case StateInputOperator uses) *)
Definition arr_mul (x y : arr) : res arr :=
  match x, y with
  | V u, V v => match vmul_b u v with Ok w => Ok (V w) | Err e => Err e end
  | V u, M [v] | M [u], V v | M [u], M [v] =>
      match vmul_b u v with Ok w => Ok (M [w]) | Err e => Err e end
  | _, _ => Err ValueError
  end.

(* scipy.linalg.khatri_rao(U, Q): column-wise Kronecker product; the column counts must agree *)
Definition khatri_rao (U Q : mat) : res mat :=
  if ncols U =? ncols Q then Ok (flat_map (fun urow => map (vmul urow) Q) U) else Err ValueError.

Definition e00 (A : mat) : R := nth 0 (nth 0 A []) 0%R.

(* state[self._mask] for a matrix of states picks rows; np.prod(..., axis=1) multiplies them *)
Definition maskprod_rows (Q : mat) (mask : list (list nat)) : res mat :=
  if forallb (forallb (fun i => i <? length Q)) mask
  then Ok (map (fun t => match t with
                         | [] => []
                         | i :: t' => fold_left (fun acc k => vmul acc (nth k Q [])) t' (nth i Q [])
                         end) mask)
  else Err IndexError.

(* op.apply(state, input_): operators/_nonparametric.py:112-120, 279-281, 493-495, 978-980, 1453-1455,
   1917-1923, 2095-2107.  (state=None for ConstantOperator is not modelled.) *)
Definition apply (o : op) (state input : arr) : res arr :=
  match o with
  | OConst c =>
      if length c =? 1 then Ok (emap (fun _ => nth 0 c 0%R) state)       (* np.full_like *)
      else match state with
           | M m => Ok (M (map (fun ci => map (fun _ => ci) (seq 0 (ncols m))) c))  (* np.outer(c, ones) *)
           | V _ => Ok (V c)
           end
  | OLin A => if nrows A =? 1 then Ok (emap (Rmult (e00 A)) state) else matdot A state
  | OPoly d H =>
      if nrows H =? 1 then Ok (emap (fun s => (e00 H * s ^ deg d)%R) state)
      else match ckron_indices d (nrows H) with
           | Err e => Err e
           | Ok mask =>
              match state with
              | V q => match maskprod q mask with Err e => Err e | Ok p => matdot H (V p) end
              | M Q => match maskprod_rows Q mask with Err e => Err e | Ok p => matdot H (M p) end
              end
           end
  | OInp B =>
      match input with
      | V u => if ncols B =? 1 then
                 if nrows B =? 1 then Ok (V (map (Rmult (e00 B)) u))
                 else if 1 <? length u then Ok (M (map (fun row => vscale (nth 0 row 0%R) u) B))   (* np.outer *)
                 else match vmul_b (map (fun row => nth 0 row 0%R) B) u with
                      | Ok w => Ok (V w) | Err e => Err e end
               else matdot B (V u)
      | M U => matdot B (M U)
      end
  | OStIn N =>
      let r := nrows N in
      let multi := match state with M _ => true | V q => (r =? 1) && (1 <? length q) end
                || match input with M _ => true | V u => (ncols N =? 1) && (1 <? length u) end in
      if ncols N =? 1 then arr_mul (emap (Rmult (e00 N)) input) state
      else if negb multi then
        match state, input with
        | V q, V u => matdot N (V (kronv u q))
        | _, _ => Err OtherError        (* unreachable: not multi means both are vectors *)
        end
      else match khatri_rao (atleast_2d input) (atleast_2d state) with
           | Err e => Err e
           | Ok D => matdot N (M D)
           end
  end.

(* the shape an operator of state dimension r and input dimension m has
   (what set_entries guarantees: operators/_nonparametric.py:78-93, 247-260, 452-474, 939-959, 1414-1434,
   1887-1898, 2061-2075) *)
Definition wf_op (r m : nat) (o : op) : Prop :=
  match o with
  | OConst c => is_vec r c
  | OLin A => is_mat r r A
  | OPoly d H => is_mat r (operator_dimension d r) H
  | OInp B => is_mat r m B
  | OStIn N => is_mat r (r * m) N
  end.

(* entries as a two-dimensional array: a ConstantOperator's vector is one column
   (that is how models/mono/_nonparametric.py:121-127 stacks it) *)
Definition entries2 (o : op) : mat :=
  match o with
  | OConst c => map (fun x => [x]) c
  | OLin A => A | OPoly _ H => H | OInp B => B | OStIn N => N
  end.

(* operator_dimension(r, m): operators/_nonparametric.py:188, 368, 606, 1098, 1580, 1991, 2212 *)
Definition opdim (o : op) (r m : nat) : nat :=
  match o with
  | OConst _ => 1 | OLin _ => r | OPoly d _ => operator_dimension d r | OInp _ => m | OStIn _ => r * m
  end.

(* datablock(states, inputs): operators/_nonparametric.py:175, 355, 592, 1084, 1566, 1978, 2199 *)
Definition datablock (o : op) (states inputs : arr) : res mat :=
  match o with
  | OConst _ => Ok [repeat 1%R (lastdim states)]
  | OLin _ => Ok (atleast_2d states)
  | OPoly d _ => ckron vmul d (atleast_2d states)
  | OInp _ => Ok (atleast_2d inputs)
  | OStIn _ => khatri_rao (atleast_2d inputs) (atleast_2d states)
  end.

(* jacobian: a matrix, or the scalar 0 inherited from OpInfOperator (operators/_base.py:665).
   operators/_nonparametric.py:300; prejac 414-416, 901-903, 1371-1378; jacobian 516-518, 1005-1008,
   1480-1483; 2128-2136 *)
Inductive jac : Type := JZero | JMat (J : mat).
Definition tab2 (r c : nat) (f : nat -> nat -> R) : mat := map (fun i => map (f i) (seq 0 c)) (seq 0 r).

(* entries of the (r, r, r, ...) tensors reshape() makes of the expanded entries *)
Definition t3 (r : nat) (H : mat) (i a b : nat) : R := mget H i (a * r + b).
Definition t4 (r : nat) (G : mat) (i a b c : nat) : R := mget G i (a * r ^ 2 + b * r + c).
Definition t5 (r : nat) (G : mat) (i a b c d : nat) : R := mget G i (a * r ^ 3 + b * r ^ 2 + c * r + d).

Definition prejac2 r H i a b := (t3 r H i a b + t3 r H i b a)%R.
Definition prejac3 r G i a b c := (t4 r G i a b c + t4 r G i b a c + t4 r G i b c a)%R.
Definition prejac4 r G i a b c d :=
  (t5 r G i a b c d + t5 r G i b a c d + t5 r G i c b a d + t5 r G i d b c a)%R.

Definition jacobian (junk : nat -> vec) (o : op) (q u : vec) : res jac :=
  match o with
  | OConst _ | OInp _ => Ok JZero
  | OLin A => Ok (JMat A)
  | OPoly d H =>
      let r := nrows H in
      match expand d junk H with
      | Err e => Err e
      | Ok G =>
         if negb (length q =? r) then Err ValueError
         else Ok (JMat (tab2 r r (fun i a =>
           match d with
           | Quadratic => bsum r (fun b => (prejac2 r G i a b * vget q b)%R)
           | Cubic => bsum r (fun b => (bsum r (fun c => (prejac3 r G i a b c * vget q c)%R) * vget q b)%R)
           | Quartic => bsum r (fun b => (bsum r (fun c => (bsum r (fun e =>
                          (prejac4 r G i a b c e * vget q e)%R) * vget q c)%R) * vget q b)%R)
           end)))
      end
  | OStIn N =>
      let r := nrows N in
      let m := ncols N / r in
      if negb (length u =? m) then Err ValueError
      else Ok (JMat (tab2 r r (fun i j => bsum m (fun k => (vget u k * mget N i (k * r + j))%R))))
  end.

(* np.allclose(A, B): |a - b| <= atol + rtol*|b| for all entries, atol = 1e-8, rtol = 1e-5 *)
Definition rleb (a b : R) : bool := if Rle_dec a b then true else false.
Definition allclose (A B : mat) : bool :=
  forallb (fun i => forallb (fun j =>
    rleb (Rabs (mget A i j - mget B i j)) (/ 10 ^ 8 + / 10 ^ 5 * Rabs (mget B i j))) (seq 0 (ncols A)))
    (seq 0 (nrows A)).

(* the function handed to _galerkin: operators/_nonparametric.py:139, 319, 538-541, 1028-1031, 1504-1509,
   1942, 2156-2161 *)
Definition galerkin_func (junk : nat -> vec) (o : op) (Vr : mat) : res mat :=
  match o with
  | OConst c => Ok (entries2 o)
  | OLin A => matmul_r A Vr
  | OPoly d H =>
      match expand d junk H with
      | Err e => Err e
      | Ok G => matmul_r G (match d with
                            | Quadratic => kronm Vr Vr
                            | Cubic => kronm Vr (kronm Vr Vr)
                            | Quartic => kronm Vr (kronm Vr (kronm Vr Vr)) end)
      end
  | OInp B => Ok B
  | OStIn N => let m := ncols N / nrows N in matmul_r N (kronm (eye m) Vr)
  end.

(* self.__class__(entries) for the two-dimensional entries _galerkin produces (compressing for the
   polynomial classes, which pass full Kronecker width) *)
Definition rebuild (o : op) (E : mat) : res op :=
  match o with
  | OConst _ => Ok (OConst (map (fun row => nth 0 row 0%R) E))
  | OLin _ => if nrows E =? ncols E then Ok (OLin E) else Err ValueError
  | OPoly d _ =>
      let r := nrows E in
      if ncols E =? r ^ deg d then match compress d E with Ok H => Ok (OPoly d H) | Err e => Err e end
      else if ncols E =? operator_dimension d r then Ok (OPoly d E) else Err ValueError
  | OInp _ => Ok (OInp E)
  | OStIn _ => if ncols E =? nrows E * (ncols E / nrows E) then Ok (OStIn E) else Err ValueError
  end.

(* OpInfOperator._galerkin: operators/_base.py:698-711.  la.solve is a parameter. *)
Section Galerkin.
  Variable solve : mat -> mat -> res mat.
  Variable junk : nat -> vec.
  Definition galerkin (o : op) (Vr : mat) (Wr : option mat) : res op :=
    let W := match Wr with None => Vr | Some W => W end in
    let n := nrows W in let r := ncols W in
    if negb (op_rows o =? n) then Err DimensionalityError
    else if negb (ncols Vr =? r) then Err DimensionalityError
    else
      do F <- galerkin_func junk o Vr;
      do E <- matmul_r (mT W) F;
      do WV <- matmul_r (mT W) Vr;
      do E' <- (if allclose WV (eye r) then Ok E else solve WV E);
      rebuild o E'.
End Galerkin.

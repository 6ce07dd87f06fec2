(* EntriesModel.v -- operator objects: set_entries, deletion, caches, ==, + (operators/_base.py OpInfOperator and the
   set_entries methods of operators/_nonparametric.py).  No proofs here. *)
From Verif Require Export OpsModel.
#[local] Open Scope nat_scope.

(* IEEE values as far as validation sees them *)
Inductive fl : Type := Fin (x : R) | NaN | Infty (negative : bool).
(* an n-dimensional array: shape and C-ordered data *)
Record nd := { shape : list nat; data : list fl }.
Definition is_nd (a : nd) : Prop := length (data a) = fold_right Nat.mul 1 (shape a).

(* what a caller may pass as entries *)
Inductive raw : Type :=
| Scalar (x : fl)          (* np.isscalar *)
| Array (a : nd)           (* numpy.ndarray *)
| Sparse (a : nd)          (* scipy.sparse, two-dimensional *)
| NotArray.                (* anything else, e.g. a list *)

Inductive cls : Type := CConst | CLin | CPoly (d : degree) | CInp | CStIn.

Definition fin_of (x : fl) : option R := match x with Fin r => Some r | _ => None end.
Fixpoint fins (l : list fl) : option vec :=
  match l with
  | [] => Some []
  | x :: l' => match fin_of x, fins l' with Some r, Some v => Some (r :: v) | _, _ => None end
  end.

(* split C-ordered data into rows of width c *)
Fixpoint rows_of (r c : nat) (v : vec) : mat :=
  match r with 0 => [] | S r' => firstn c v :: rows_of r' c (skipn c v) end.

(* OpInfOperator._validate_entries: operators/_base.py:554-566 (sparse matrices are let through) *)
Definition validate (x : raw) : res nd :=
  match x with
  | Array a => match fins (data a) with Some _ => Ok a | None => Err ValueError end
  | Sparse a => Ok a
  | Scalar _ | NotArray => Err TypeError
  end.

(* the stored entries; a sparse LinearOperator may hold unchecked values *)
Inductive stored : Type := Dense (o : op) | SparseLin (n : nat) (d : list fl).

Definition atleast (sh : list nat) (x : raw) : raw :=
  match x with
  | Scalar v => Array {| shape := sh; data := [v] |}
  | _ => x
  end.
(* np.isscalar(entries) or np.shape(entries) == (1,): np.atleast_2d *)
Definition atleast_2d_raw (x : raw) : raw :=
  match atleast [1; 1] x with
  | Array a => match shape a with [1] => Array {| shape := [1; 1]; data := data a |} | _ => Array a end
  | y => y
  end.

Definition all_equal (sh : list nat) : bool :=
  match sh with [] => false | a :: t => forallb (Nat.eqb a) t end.

(* set_entries of each class up to the final store; operators/_nonparametric.py: Constant 78-93, Linear 247-260,
   Quadratic 452-474, Cubic 939-959, Quartic 1414-1434, Input 1887-1898, StateInput 2061-2075.
   Sparse arguments are modelled for Constant (toarray) and Linear only; elsewhere the model stops with OtherError. *)
Definition set_entries (c : cls) (x : raw) : res stored :=
  match c with
  | CConst =>
      let x := match atleast [1] x with Sparse a => Array a | y => y end in
      do a <- validate x;
      match fins (data a) with
      | None => Err ValueError
      | Some v => match shape a with
                  | [_] => Ok (Dense (OConst v))
                  | [p; q] => if (p =? 1) || (q =? 1) then Ok (Dense (OConst v)) else Err ValueError
                  | _ => Err ValueError
                  end
      end
  | CLin =>
      let x := atleast_2d_raw x in
      do a <- validate x;
      match shape a with
      | [p; q] => if p =? q then
                    match x, fins (data a) with
                    | Sparse _, _ => Ok (SparseLin p (data a))
                    | _, Some v => Ok (Dense (OLin (rows_of p q v)))
                    | _, None => Err ValueError
                    end
                  else Err ValueError
      | _ => Err ValueError
      end
  | CPoly d =>
      let x := atleast_2d_raw x in
      do a <- validate x;
      match x with Sparse _ => Err OtherError | _ =>
      match fins (data a) with
      | None => Err ValueError
      | Some v =>
        let sh := if (length (shape a) =? S (deg d)) && all_equal (shape a)
                  then [hd 0 (shape a); hd 0 (shape a) ^ deg d] else shape a in
        match sh with
        | [r; w] =>
            let E := rows_of r w v in
            if w =? r ^ deg d then match compress d E with Ok H => Ok (Dense (OPoly d H)) | Err e => Err e end
            else if w =? operator_dimension d r then Ok (Dense (OPoly d E)) else Err ValueError
        | _ => Err ValueError
        end
      end end
  | CInp =>
      let x := atleast_2d_raw x in
      do a <- validate x;
      match x with Sparse _ => Err OtherError | _ =>
      match fins (data a), shape a with
      | Some v, [p] => Ok (Dense (OInp (rows_of p 1 v)))
      | Some v, [p; q] => Ok (Dense (OInp (rows_of p q v)))
      | _, _ => Err ValueError
      end end
  | CStIn =>
      let x := atleast_2d_raw x in
      do a <- validate x;
      match x with Sparse _ => Err OtherError | _ =>
      match fins (data a), shape a with
      | Some v, [r; w] => if r =? 0 then Err ZeroDivisionError      (* rm // r *)
                          else if w =? r * (w / r) then Ok (Dense (OStIn (rows_of r w v))) else Err ValueError
      | _, _ => Err ValueError
      end end
  end.

(* ---- the object and its caches ------------------------------------------------------------------- *)
(* Quadratic/Cubic/Quartic also hold _mask and the cached _prejac (here: the expanded matrix it is made of) *)
Record obj := { oentries : option op; omask : option (list (list nat)); oprejac : option mat }.

(* __init__ / _clear: operators/_base.py:544-552, operators/_nonparametric.py:404-408 *)
Definition cleared : obj := {| oentries := None; omask := None; oprejac := None |}.

(* set_entries on the object: a failed call leaves it unchanged; the polynomial classes set _mask, reset _prejac, store *)
Definition obj_set (c : cls) (s : obj) (x : raw) : obj * res unit :=
  match set_entries c x with
  | Err e => (s, Err e)
  | Ok (SparseLin _ _) => (s, Err OtherError)       (* sparse entries: not carried into the object model *)
  | Ok (Dense o) =>
      match o with
      | OPoly d H => match ckron_indices d (nrows H) with
                     | Ok mask => ({| oentries := Some o; omask := Some mask; oprejac := None |}, Ok tt)
                     | Err e => (s, Err e)
                     end
      | _ => ({| oentries := Some o; omask := omask s; oprejac := oprejac s |}, Ok tt)
      end
  end.

(* apply on the object: @requires("entries"), then the stored mask *)
Definition obj_apply (s : obj) (q u : arr) : res arr :=
  match oentries s with
  | None => Err AttributeError
  | Some (OPoly d H) =>
      if nrows H =? 1 then apply (OPoly d H) q u
      else match omask s with
           | None => Err TypeError
           | Some mask =>
              match q with
              | V v => match maskprod v mask with Err e => Err e | Ok p => matdot H (V p) end
              | M Q => match maskprod_rows Q mask with Err e => Err e | Ok p => matdot H (M p) end
              end
           end
  | Some o => apply o q u
  end.

(* jacobian on the object: fills the cache when empty (operators/_nonparametric.py:516-518, 1005-1008, 1480-1483) *)
Definition jac_from (d : degree) (r : nat) (G : mat) (q : vec) : res jac :=
  if negb (length q =? r) then Err ValueError
  else Ok (JMat (tab2 r r (fun i a =>
     match d with
     | Quadratic => bsum r (fun b => (prejac2 r G i a b * vget q b)%R)
     | Cubic => bsum r (fun b => (bsum r (fun c => (prejac3 r G i a b c * vget q c)%R) * vget q b)%R)
     | Quartic => bsum r (fun b => (bsum r (fun c => (bsum r (fun e =>
                    (prejac4 r G i a b c e * vget q e)%R) * vget q c)%R) * vget q b)%R)
     end))).

Definition obj_jacobian (junk : nat -> vec) (s : obj) (q u : vec) : obj * res jac :=
  match oentries s with
  | None => (s, Err AttributeError)
  | Some (OPoly d H) =>
      match oprejac s with
      | Some G => (s, jac_from d (nrows H) G q)
      | None => match expand d junk H with
                | Err e => (s, Err e)
                | Ok G => ({| oentries := oentries s; omask := omask s; oprejac := Some G |}, jac_from d (nrows H) G q)
                end
      end
  | Some o => (s, jacobian junk o q u)
  end.

Inductive call : Type := SetEntries (x : raw) | DelEntries | Apply (q u : arr) | Jacobian (q u : vec).
Inductive answer : Type := AUnit (x : res unit) | AArr (x : res arr) | AJac (x : res jac).

Definition step (junk : nat -> vec) (c : cls) (s : obj) (k : call) : obj * answer :=
  match k with
  | SetEntries x => let '(s', a) := obj_set c s x in (s', AUnit a)
  | DelEntries => (cleared, AUnit (Ok tt))
  | Apply q u => (s, AArr (obj_apply s q u))
  | Jacobian q u => let '(s', a) := obj_jacobian junk s q u in (s', AJac a)
  end.
Fixpoint run (junk : nat -> vec) (c : cls) (s : obj) (ks : list call) : obj * list answer :=
  match ks with
  | [] => (s, [])
  | k :: ks' => let '(s1, a) := step junk c s k in let '(s2, l) := run junk c s1 ks' in (s2, a :: l)
  end.

(* ---- == and + ------------------------------------------------------------------------------------- *)
Definition same_class (a b : op) : bool :=
  match a, b with
  | OConst _, OConst _ | OLin _, OLin _ | OInp _, OInp _ | OStIn _, OStIn _ => true
  | OPoly d _, OPoly d' _ => match d, d' with
                             | Quadratic, Quadratic | Cubic, Cubic | Quartic, Quartic => true
                             | _, _ => false end
  | _, _ => false
  end.
Definition veqb (u v : vec) : bool := if list_eq_dec Req_EM_T u v then true else false.
Definition meqb (A B : mat) : bool := if list_eq_dec (list_eq_dec Req_EM_T) A B then true else false.
Definition data2 (o : op) : mat := entries2 o.

(* __eq__: operators/_base.py:607-621 (np.all(entries == entries) after the shapes agree) *)
Definition op_eqb (a b : op) : bool :=
  if same_class a b then
    if (nrows (data2 a) =? nrows (data2 b)) && (ncols (data2 a) =? ncols (data2 b))
    then meqb (data2 a) (data2 b) else false
  else false.

(* numpy broadcasting of two 2-D arrays *)
Definition bdim (a b : nat) : res nat :=
  if a =? b then Ok a else if a =? 1 then Ok b else if b =? 1 then Ok a else Err ValueError.
Definition bget (A : mat) (i j : nat) : R :=
  mget A (if nrows A =? 1 then 0 else i) (if ncols A =? 1 then 0 else j).
Definition badd (A B : mat) : res mat :=
  do r <- bdim (nrows A) (nrows B); do c <- bdim (ncols A) (ncols B);
  Ok (tab2 r c (fun i j => (bget A i j + bget B i j)%R)).

(* __add__: operators/_base.py:623-630; the class constructor then validates the sum *)
Definition rebuild_same (o : op) (E : mat) : res op :=
  match o with
  | OConst _ => Ok (OConst (map (fun row => nth 0 row 0%R) E))
  | OLin _ => if nrows E =? ncols E then Ok (OLin E) else Err ValueError
  | OPoly d _ =>
      let r := nrows E in
      if ncols E =? r ^ deg d then match compress d E with Ok H => Ok (OPoly d H) | Err e => Err e end
      else if ncols E =? operator_dimension d r then Ok (OPoly d E) else Err ValueError
  | OInp _ => Ok (OInp E)
  | OStIn _ => if nrows E =? 0 then Err ZeroDivisionError
               else if ncols E =? nrows E * (ncols E / nrows E) then Ok (OStIn E) else Err ValueError
  end.
Definition op_add (a b : op) : res op :=
  if negb (same_class a b) then Err TypeError
  else do E <- badd (data2 a) (data2 b); rebuild_same a E.

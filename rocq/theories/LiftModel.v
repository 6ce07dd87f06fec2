(* LiftModel.v -- lift/_polynomial.py: QuadraticLifter and PolynomialLifter.  Orders are real numbers; the arrays hold
   floating-point numbers without rounding.  verify() is in VerifyLiftModel.v; __str__ is not modelled.  No proofs here. *)
From Verif Require Export SpecLift.
#[local] Open Scope R_scope.

(* ---- numpy's arithmetic on these numbers ---- *)
Definition is_int (p : R) : bool := if Req_EM_T (IZR (Int_part p)) p then true else false.
Definition odd_int (p : R) : bool := is_int p && Z.odd (Int_part p).
(* x ** p *)
Definition npow (x : fnum) (p : R) : fnum :=
  if Req_EM_T p 0 then F 1
  else match x with
       | F x => if Rlt_dec 0 x then F (Rpower x p)
                else if Rlt_dec x 0
                     then (if is_int p then F (if odd_int p then - Rpower (- x) p else Rpower (- x) p) else NaN)
                     else if Rlt_dec 0 p then F 0 else PInf
       | PInf => if Rlt_dec 0 p then PInf else F 0
       | MInf => if Rlt_dec 0 p then (if odd_int p then MInf else PInf) else F 0
       | NaN => NaN
       end.
Definition sgn (x : R) : Z := if Rlt_dec 0 x then 1%Z else if Rlt_dec x 0 then (-1)%Z else 0%Z.
Definition nsgn (x : fnum) : Z := match x with F x => sgn x | PInf => 1%Z | MInf => (-1)%Z | NaN => 0%Z end.
(* x * y *)
Definition nmult (x y : fnum) : fnum :=
  match x, y with
  | F a, F b => F (a * b)
  | NaN, _ | _, NaN => NaN
  | _, _ => match (nsgn x * nsgn y)%Z with Z0 => NaN | Zpos _ => PInf | Zneg _ => MInf end
  end.

(* elementwise operations, and np.concatenate and np.split along the first axis *)
Definition nmap (f : fnum -> fnum) (L : narr) : narr := match L with NV v => NV (map f v) | NM m => NM (map (map f) m) end.
Definition nmap2 (f : fnum -> fnum -> fnum) (A B : narr) : res narr :=
  match A, B with
  | NV u, NV v => if (length u =? length v)%nat then Ok (NV (map2 f u v)) else Err ValueError
  | NM a, NM b => if (length a =? length b)%nat && (length (hd [] a) =? length (hd [] b))%nat then Ok (NM (map2 (map2 f) a b)) else Err ValueError
  | _, _ => Err ValueError
  end.
Definition nappend (A B : narr) : res narr :=
  match A, B with
  | NV u, NV v => Ok (NV (u ++ v))
  | NM a, NM b => if (length (hd [] a) =? length (hd [] b))%nat then Ok (NM (a ++ b)) else Err ValueError
  | _, _ => Err ValueError
  end.
Fixpoint nconcat (l : list narr) : res narr :=
  match l with
  | [] => Err ValueError
  | [a] => Ok a
  | a :: l' => do b <- nconcat l'; nappend a b
  end.
Definition chunks {A} (k s : nat) (l : list A) : list (list A) := map (fun a => firstn s (skipn (a * s) l)) (seq 0 k).
Definition nsplit (k : nat) (L : narr) : res (list narr) :=
  if (k =? 0)%nat then Err ZeroDivisionError
  else if negb (nrows_n L mod k =? 0)%nat then Err ValueError
  else let s := (nrows_n L / k)%nat in
       Ok (match L with NV v => map NV (chunks k s v) | NM m => map NM (chunks k s m) end).

(* QuadraticLifter.lift: _polynomial.py:34 *)
Definition quad_lift (Q : arr) : res narr := nappend (finite Q) (nmap (fun x => npow x 2) (finite Q)).
(* QuadraticLifter.lift_ddts: _polynomial.py:54 *)
Definition quad_lift_ddts (Q D : arr) : res narr :=
  do P <- nmap2 nmult (nmap (nmult (F 2)) (finite Q)) (finite D); nappend (finite D) P.
(* QuadraticLifter.unlift: _polynomial.py:70 *)
Definition quad_unlift (L : narr) : res narr := do vs <- nsplit 2 L; match vs with v :: _ => Ok v | [] => Err IndexError end.

(* arguments of the orders setter: a number, a sequence of numbers and other things, or something not iterable *)
Inductive item := Num (x : R) | NotNum.
Inductive orders_arg := Number (x : R) | Sequence (l : list item) | NotIterable.
(* int(x): truncation towards zero *)
Definition trunc (x : R) : R := if Rle_dec 0 x then IZR (Int_part x) else - IZR (Int_part (- x)).
(* PolynomialLifter.orders = ps: _polynomial.py:100-114 *)
Definition set_orders (a : orders_arg) : res vec :=
  match a with
  | Number x => Ok [trunc x]
  | Sequence l => mapM (fun i => match i with Num x => Ok x | NotNum => Err TypeError end) l
  | NotIterable => Err TypeError
  end.
(* lift: _polynomial.py:144 *)
Definition poly_lift (orders : vec) (Q : arr) : res narr :=
  nconcat (map (fun p => nmap (fun x => npow x p) (finite Q)) orders).
(* lift_ddts: _polynomial.py:163-165 *)
Definition poly_lift_ddts (orders : vec) (Q D : arr) : res narr :=
  do l <- mapM (fun p => nmap2 nmult (nmap (fun x => nmult (F p) (npow x (p - 1))) (finite Q)) (finite D)) orders;
  nconcat l.
(* unlift: _polynomial.py:180-186 *)
Fixpoint index1 (orders : vec) : option nat :=
  match orders with
  | [] => None
  | p :: l => if Req_EM_T p 1 then Some 0%nat else match index1 l with Some i => Some (S i) | None => None end
  end.
Fixpoint first_root (vars : list narr) (orders : vec) : res narr :=
  match vars, orders with
  | var :: vs, p :: ps => if Req_EM_T p 0 then first_root vs ps else Ok (nmap (fun x => npow x (1 / p)) var)
  | _, _ => Err ZeroDivisionError
  end.
Definition poly_unlift (orders : vec) (L : narr) : res narr :=
  do vars <- nsplit (length orders) L;
  match index1 orders with
  | Some i => match nth_error vars i with Some v => Ok v | None => Err IndexError end
  | None => first_root vars orders
  end.

(* PolyOpModel.v -- opinf.operators.PolynomialOperator (operators/_polynomial_operator.py).
   No proofs here. *)
From Verif Require Export OpsModel.
#[local] Open Scope nat_scope.

(* scipy.special.comb(n, k, exact=True) *)
Fixpoint comb (n k : nat) : nat :=
  match n, k with
  | _, 0 => 1
  | 0, S _ => 0
  | S n', S k' => comb n' k' + comb n' k
  end.

(* __init__ on an integer order: _polynomial_operator.py:52-64.  (Non-integer orders are rejected by the
   np.isclose test, which is not modelled.) *)
Definition poly_init (p : Z) : res nat := if (p <? 0)%Z then Err ValueError else Ok (Z.to_nat p).

(* operator_dimension: :78-87; comb(r, p, repetition=True) = comb(r + p - 1, p) *)
Definition pdim (p r : nat) : nat := match p with 0 => 1 | _ => comb (r + p - 1) p end.

(* keptIndices_p: :127-147.  Row i of arange(r*dim).reshape(r, dim), cut at operator_dimension(i+1) of order p-1
   (a slice never runs past the row) *)
Definition kept (r p : nat) : list nat :=
  match p with
  | 0 => [0]
  | S p' => let dim := pdim p' r in
            flat_map (fun i => firstn (pdim p' (i + 1)) (seq (i * dim) dim)) (seq 0 r)
  end.

(* fancy indexing a[ix]: IndexError past the end *)
Definition fancy {A} (d : A) (a : list A) (ix : list nat) : res (list A) :=
  if forallb (fun i => i <? length a) ix then Ok (map (fun i => nth i a d) ix) else Err IndexError.

(* exp_p for p >= 1: :163-190; on a vector (mul = product of reals, np.kron) and on a matrix of states
   (rows, mul = elementwise product of rows, khatri_rao) *)
Section Exp.
  Context {A : Type} (mul : A -> A -> A) (dflt : A).
  Fixpoint exp_p (x : list A) (p : nat) : res (list A) :=
    match p with
    | 0 => Err OtherError            (* not reached: the callers treat order 0 separately *)
    | 1 => Ok x
    | S p' => match exp_p x p' with
              | Err e => Err e
              | Ok y => fancy dflt (flat_map (fun a => map (mul a) y) x) (kept (length x) p)
              end
    end.
End Exp.

(* datablock: :109-119 *)
Definition pdatablock (p : nat) (states : arr) : res mat :=
  match p with
  | 0 => Ok [repeat 1%R (lastdim states)]
  | _ => let Q := atleast_2d states in
         match Q with [] => Ok [] | _ => exp_p vmul [] Q p end
  end.

(* apply: :196-222, entries two-dimensional (r rows); order 0 keeps one column *)
Definition papply (p : nat) (E : mat) (state : arr) : res arr :=
  let rows := match state with V q => length q | M Q => nrows Q end in
  if negb (rows =? nrows E) then Err ValueError
  else match p with
  | 0 => match state with
         | M Q => Ok (M (map (fun row => map (fun _ => nth 0 row 0%R) (seq 0 (ncols Q))) E))
         | V _ => Ok (V (map (fun row => nth 0 row 0%R) E))
         end
  | 1 => matdot E state
  | _ => match state with
         | V q => match exp_p Rmult 0%R q p with Ok y => matdot E (V y) | Err e => Err e end
         | M Q => match exp_p vmul [] Q p with Ok y => matdot E (M y) | Err e => Err e end
         end
  end.

(* jacobian is inherited from OpInfOperator: operators/_base.py:665 *)
Definition pjacobian (p : nat) (E : mat) (q : vec) : jac := JZero.

(* a PolynomialOperator object: order and entries *)
Record pop := { porder : nat; pentries : option mat }.
(* copy(): operators/_base.py:780-783 calls self.__class__(entries): the entries become the polynomial order.
   `array < 0` on more than one element has no truth value (ValueError); on one element x the order is int(x);
   None < 0 is a TypeError.  `isclose_int x` stands for np.isclose(x, int(x)). *)
Definition pcopy (isclose_int : R -> option nat) (o : pop) : res pop :=
  match pentries o with
  | None => Err TypeError
  | Some [[x]] => if Rlt_dec x 0 then Err ValueError
                  else match isclose_int x with
                       | Some p => Ok {| porder := p; pentries := None |}
                       | None => Err ValueError end
  | Some _ => Err ValueError
  end.

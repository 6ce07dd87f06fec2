(* TupleModel.v -- model of the compressed Kronecker machinery of
   operators/_nonparametric.py (QuadraticOperator, CubicOperator, QuarticOperator utilities).
   No proofs in this file. *)
From Verif Require Export NumPy.
#[local] Open Scope nat_scope.

(* for i in range(r): for j in range(i + 1): (i, j)
   operators/_nonparametric.py:733-736 (also 784-785, 844-845) *)
Definition loop2 (r : nat) : list (list nat) :=
  flat_map (fun i => map (fun j => [i; j]) (seq 0 (i + 1))) (seq 0 r).

(* the triple loop, operators/_nonparametric.py:1185-1189 (also 1238-1240, 1299-1301) *)
Definition loop3 (r : nat) : list (list nat) :=
  flat_map (fun i => flat_map (fun j => map (fun k => [i; j; k]) (seq 0 (j + 1)))
                              (seq 0 (i + 1))) (seq 0 r).

(* the quadruple loop, operators/_nonparametric.py:1671-1676 (also 1726-1729, 1793-1796) *)
Definition loop4 (r : nat) : list (list nat) :=
  flat_map (fun i => flat_map (fun j => flat_map (fun k => map (fun l => [i; j; k; l])
     (seq 0 (k + 1))) (seq 0 (j + 1))) (seq 0 (i + 1))) (seq 0 r).

(* operator_dimension(r): operators/_nonparametric.py:606, 1098, 1580 *)
Definition opdim2 (r : nat) : nat := r * (r + 1) / 2.
Definition opdim3 (r : nat) : nat := r * (r + 1) * (r + 2) / 6.
Definition opdim4 (r : nat) : nat := r * (r + 1) * (r + 2) * (r + 3) / 24.

(* mask = np.zeros((dim, p), dtype=int); count = 0; loop: mask[count, :] = tuple; count += 1
   Writing past the preallocated rows raises IndexError; rows never written stay zero.
   operators/_nonparametric.py:731-737, 1183-1190, 1669-1677 *)
Fixpoint fill_rows (dim : nat) (zero : list nat) (rows : list (list nat)) : res (list (list nat)) :=
  match dim, rows with
  | O, [] => Ok []
  | O, _ :: _ => Err IndexError
  | S d, [] => match fill_rows d zero [] with Ok m => Ok (zero :: m) | Err e => Err e end
  | S d, t :: rows' => match fill_rows d zero rows' with Ok m => Ok (t :: m) | Err e => Err e end
  end.
Definition ckron_indices2 (r : nat) := fill_rows (opdim2 r) [0;0] (loop2 r).
Definition ckron_indices3 (r : nat) := fill_rows (opdim3 r) [0;0;0] (loop3 r).
Definition ckron_indices4 (r : nat) := fill_rows (opdim4 r) [0;0;0;0] (loop4 r).

(* ckron on an array whose leading axis is listed: entries of type A multiply with mul
   (A = R for a state vector, A = row of reals for a matrix of states, "columnwise").
   np.concatenate([state[i] * state[: i + 1] for i in range(state.shape[0])])
   operators/_nonparametric.py:699-702.
   np.concatenate of an empty list of blocks raises ValueError (r = 0). *)
Section Ckron.
  Context {A : Type} (mul : A -> A -> A).
  Definition ckron2 (state : list A) : list A :=
    flat_map (fun p => let '(i, si) := p in map (mul si) (firstn (i + 1) state))
             (combine (seq 0 (length state)) state).
  (* scipy.special.binom(n, 2), exact for integers *)
  Definition binom2 (n : nat) : nat := n * (n - 1) / 2.
  Definition binom3 (n : nat) : nat := n * (n - 1) * (n - 2) / 6.
  (* operators/_nonparametric.py:1149-1154; lens[i] = binom(i + 2, 2) *)
  Definition ckron3 (state : list A) : list A :=
    let state2 := ckron2 state in
    flat_map (fun p => let '(i, si) := p in map (mul si) (firstn (binom2 (i + 2)) state2))
             (combine (seq 0 (length state)) state).
  (* operators/_nonparametric.py:1635-1640; lens[i] = binom(i + 3, 3) *)
  Definition ckron4 (state : list A) : list A :=
    let state3 := ckron3 state in
    flat_map (fun p => let '(i, si) := p in map (mul si) (firstn (binom3 (i + 3)) state3))
             (combine (seq 0 (length state)) state).
End Ckron.

(* np.prod(state[mask], axis=1) for a state vector.  Fancy indexing with an index >= len(state)
   raises IndexError.  operators/_nonparametric.py:495, 980, 1455 *)
Definition prod_at (state : vec) (t : list nat) : R := lprod (map (fun i => nth i state 0%R) t).
Definition maskprod (state : vec) (mask : list (list nat)) : res vec :=
  if forallb (forallb (fun i => Nat.ltb i (length state))) mask
  then Ok (map (prod_at state) mask)
  else Err IndexError.

(* set(itertools.permutations(t, len(t))): the distinct rearrangements of t.
   (Python's set order is unspecified; results below do not depend on it.)
   operators/_nonparametric.py:1241, 1302, 1730, 1797 *)
Fixpoint insert_all (x : nat) (l : list nat) : list (list nat) :=
  match l with
  | [] => [[x]]
  | y :: l' => (x :: l) :: map (cons y) (insert_all x l')
  end.
Fixpoint perms (l : list nat) : list (list nat) :=
  match l with
  | [] => [[]]
  | x :: l' => flat_map (insert_all x) (perms l')
  end.
Definition perm_set (t : list nat) : list (list nat) := nodup (list_eq_dec Nat.eq_dec) (perms t).

(* column offsets: (i*r)+j, (a*r**2)+(b*r)+c, (a*r**3)+(b*r**2)+(c*r)+d
   operators/_nonparametric.py:787-789, 1243, 1305, 1733, 1800 *)
Definition idx2 (r : nat) (t : list nat) : nat :=
  match t with [i; j] => i * r + j | _ => 0 end.
Definition idx3 (r : nat) (t : list nat) : nat :=
  match t with [a; b; c] => a * r ^ 2 + b * r + c | _ => 0 end.
Definition idx4 (r : nat) (t : list nat) : nat :=
  match t with [a; b; c; d] => a * r ^ 3 + b * r ^ 2 + c * r + d | _ => 0 end.

(* int(round(n ** (1 / p), 0)): the integer nearest to the real p-th root, i.e. the largest r
   with r - 1/2 <= n^(1/p).  (n^(1/p) is never a half-integer, so ties do not occur; floating
   point evaluation of the root is idealised.)
   operators/_nonparametric.py:776, 1230, 1718 *)
Fixpoint nearest_root_from (p n r : nat) : nat :=
  match r with
  | 0 => 0
  | S r' => if (2 * r - 1) ^ p <=? 2 ^ p * n then r else nearest_root_from p n r'
  end.
Definition nearest_root (p n : nat) : nat := nearest_root_from p n (n + 1).

(* one row of compress_entries, quadratic: operators/_nonparametric.py:783-790 *)
Definition compress_row2 (r : nat) (h : vec) : vec :=
  map (fun t => match t with
                | [i; j] => if i =? j then nth (i * r + j) h 0%R
                            else (nth (i * r + j) h 0 + nth (j * r + i) h 0)%R
                | _ => 0%R
                end) (loop2 r).
(* one row of compress_entries, cubic / quartic: 1237-1246, 1725-1738 *)
Definition compress_row3 (r : nat) (g : vec) : vec :=
  map (fun t => lsum (map (fun s => nth (idx3 r s) g 0%R) (perm_set t))) (loop3 r).
Definition compress_row4 (r : nat) (g : vec) : vec :=
  map (fun t => lsum (map (fun s => nth (idx4 r s) g 0%R) (perm_set t))) (loop4 r).

(* compress_entries; each row of the matrix is treated alike (the code works on whole columns).
   A one-dimensional argument is the one-row matrix (np.atleast_2d).
   operators/_nonparametric.py:773-792, 1227-1248, 1715-1740 *)
Definition compress_entries (p : nat) (row : nat -> vec -> vec) (H : mat) : res mat :=
  let rp := ncols H in
  let r := nearest_root p rp in
  if negb (r ^ p =? rp) then Err ValueError else Ok (map (row r) H).
Definition compress_entries2 := compress_entries 2 compress_row2.
Definition compress_entries3 := compress_entries 3 compress_row3.
Definition compress_entries4 := compress_entries 4 compress_row4.

(* a[pos] = x *)
Fixpoint upd {A} (pos : nat) (x : A) (l : list A) : list A :=
  match l, pos with
  | [], _ => []
  | _ :: l', 0 => x :: l'
  | y :: l', S p => y :: upd p x l'
  end.
Definition writes (ws : list (nat * R)) (l : vec) : vec :=
  fold_left (fun g w => upd (fst w) (snd w) g) ws l.

(* one row of expand_entries, as a sequence of writes into np.empty (junk contents g0)
   quadratic: operators/_nonparametric.py:842-852 *)
Definition expand_row2 (r : nat) (g0 hc : vec) : vec :=
  fold_left (fun g w => match w with
     | ([i; j], fj) => if i =? j then upd (i * r + j) (nth fj hc 0%R) g
                       else let fill := (nth fj hc 0 / 2)%R in
                            upd (j * r + i) fill (upd (i * r + j) fill g)
     | _ => g
     end) (combine (loop2 r) (seq 0 (length (loop2 r)))) g0.
(* cubic: 1297-1306; quartic: 1791-1801 *)
Definition expand_row3 (r : nat) (g0 gc : vec) : vec :=
  fold_left (fun g w => let '(t, fj) := w in
     let idxs := perm_set t in
     let fill := (nth fj gc 0 / INR (length idxs))%R in
     fold_left (fun g s => upd (idx3 r s) fill g) idxs g)
    (combine (loop3 r) (seq 0 (length (loop3 r)))) g0.
Definition expand_row4 (r : nat) (g0 gc : vec) : vec :=
  fold_left (fun g w => let '(t, fj) := w in
     let idxs := perm_set t in
     let fill := (nth fj gc 0 / INR (length idxs))%R in
     fold_left (fun g s => upd (idx4 r s) fill g) idxs g)
    (combine (loop4 r) (seq 0 (length (loop4 r)))) g0.

(* r = int(round(np.sqrt(1 + 8 * b) / 2 - 0.5, 0)), i.e. floor(sqrt(1+8b)/2) (no ties: 1+8b odd)
   operators/_nonparametric.py:835 *)
Definition rfrom2 (b : nat) : nat := Nat.sqrt (1 + 8 * b) / 2.

(* int(b ** (1/p)): floor of the real p-th root *)
Fixpoint floor_root_from (p n r : nat) : nat :=
  match r with
  | 0 => 0
  | S r' => if r ^ p <=? n then r else floor_root_from p n r'
  end.
Definition floor_root (p n : nat) : nat := floor_root_from p n n.

(* int(round(x, 0)) for x >= 0: nearest integer, half to even *)
Definition round_half_even (x : R) : Z :=
  let f := Int_part x in
  match Rlt_dec (x - IZR f) (1/2) with
  | left _ => f
  | right _ => match Rlt_dec (1/2) (x - IZR f) with
               | left _ => (f + 1)%Z
               | right _ => if Z.even f then f else (f + 1)%Z
               end
  end.

(* Newton loop of _rfromcompressed; the exact-arithmetic reading of the float iteration.
   operators/_nonparametric.py:1311-1323 *)
Fixpoint newton3 (maxiters : nat) (b6 r : R) : res Z :=
  match maxiters with
  | 0 => Err ValueError
  | S n =>
     let r2_3 := (3 * r ^ 2)%R in
     let rnew := (r - (r ^ 3 + r2_3 + 2 * r - b6) / (r2_3 + 6 * r + 2))%R in
     match Rlt_dec (Rabs (r - rnew)) (1/4) with
     | left _ => Ok (round_half_even rnew)
     | right _ => newton3 n b6 rnew
     end
  end.
Definition rfrom3 (b : nat) : res Z := newton3 10 (6 * INR b) (INR (floor_root 3 b)).

(* operators/_nonparametric.py:1806-1821 *)
Fixpoint newton4 (maxiters : nat) (b24 r : R) : res Z :=
  match maxiters with
  | 0 => Err ValueError
  | S n =>
     let rnew := (r - (r ^ 4 + 6 * r ^ 3 + 11 * r ^ 2 + 6 * r - b24)
                      / (4 * r ^ 3 + 18 * r ^ 2 + 22 * r + 6))%R in
     match Rlt_dec (Rabs (r - rnew)) (1/4) with
     | left _ => Ok (round_half_even rnew)
     | right _ => newton4 n b24 rnew
     end
  end.
Definition rfrom4 (b : nat) : res Z := newton4 10 (24 * INR b) (INR (floor_root 4 b)).

(* expand_entries.  junk r stands for the contents of the r**p columns np.empty allocates.
   operators/_nonparametric.py:832-854, 1287-1308, 1781-1803.
   (The integer r found may be compared as a nonnegative integer: Newton iterates stay >= 0.) *)
Definition expand_entries2 (junk : nat -> vec) (Hc : mat) : res mat :=
  let b := ncols Hc in
  let r := rfrom2 b in
  if negb (r * (r + 1) / 2 =? b) then Err ValueError
  else Ok (map (expand_row2 r (junk (r ^ 2))) Hc).
Definition expand_entries3 (junk : nat -> vec) (Gc : mat) : res mat :=
  let b := ncols Gc in
  match rfrom3 b with
  | Err e => Err e
  | Ok rz =>
     if negb (Z.eqb (rz * (rz + 1) * (rz + 2) / 6) (Z.of_nat b)) then Err ValueError
     else let r := Z.to_nat rz in Ok (map (expand_row3 r (junk (r ^ 3))) Gc)
  end.
Definition expand_entries4 (junk : nat -> vec) (Gc : mat) : res mat :=
  let b := ncols Gc in
  match rfrom4 b with
  | Err e => Err e
  | Ok rz =>
     if negb (Z.eqb (rz * (rz + 1) * (rz + 2) * (rz + 3) / 24) (Z.of_nat b)) then Err ValueError
     else let r := Z.to_nat rz in Ok (map (expand_row4 r (junk (r ^ 4))) Gc)
  end.

(* The three classes QuadraticOperator, CubicOperator, QuarticOperator carry utilities of the same
   names; `degree` selects the class. *)
Inductive degree : Set := Quadratic | Cubic | Quartic.
Definition deg (d : degree) : nat := match d with Quadratic => 2 | Cubic => 3 | Quartic => 4 end.
(* operator_dimension(r): operators/_nonparametric.py:606, 1098, 1580 *)
Definition operator_dimension (d : degree) (r : nat) : nat :=
  match d with Quadratic => opdim2 r | Cubic => opdim3 r | Quartic => opdim4 r end.
(* ckron_indices(r): operators/_nonparametric.py:731-737, 1183-1190, 1669-1677 *)
Definition ckron_indices (d : degree) (r : nat) : res (list (list nat)) :=
  match d with
  | Quadratic => ckron_indices2 r | Cubic => ckron_indices3 r | Quartic => ckron_indices4 r
  end.
(* ckron(state) for state.shape[0] > 0 *)
Definition ckron_of {A} (mul : A -> A -> A) (d : degree) (state : list A) : list A :=
  match d with
  | Quadratic => ckron2 mul state | Cubic => ckron3 mul state | Quartic => ckron4 mul state
  end.
(* ckron(state), with numpy's "need at least one array to concatenate" for an empty state.
   operators/_nonparametric.py:699-702, 1149-1154, 1635-1640 *)
Definition ckron {A} (mul : A -> A -> A) (d : degree) (state : list A) : res (list A) :=
  match state with
  | [] => Err ValueError
  | _ => Ok (ckron_of mul d state)
  end.
(* compress_entries / expand_entries *)
Definition compress (d : degree) (H : mat) : res mat :=
  match d with
  | Quadratic => compress_entries2 H | Cubic => compress_entries3 H | Quartic => compress_entries4 H
  end.
Definition expand (d : degree) (junk : nat -> vec) (Hc : mat) : res mat :=
  match d with
  | Quadratic => expand_entries2 junk Hc | Cubic => expand_entries3 junk Hc
  | Quartic => expand_entries4 junk Hc
  end.

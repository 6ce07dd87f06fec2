(* SpecPre.v -- vocabulary for the statements about preprocessing. *)
From Verif Require Export PreModel.
#[local] Open Scope nat_scope.

(* the same number of dimensions and the same row lengths *)
Definition same_shape (a b : arr) : Prop :=
  match a, b with
  | V u, V v => length u = length v
  | M A, M B => map (@length R) A = map (@length R) B
  | _, _ => False
  end.
(* Q + h D, entry by entry *)
Definition acomb (a : arr) (h : R) (d : arr) : arr :=
  match a, d with
  | V u, V v => V (map2 (fun x y => x + h * y)%R u v)
  | M A, M B => M (map2 (map2 (fun x y => x + h * y)%R) A B)
  | _, _ => a
  end.

(* a scalar coefficient, or n of them, or one for all rows; none of them zero *)
Definition nonzero_coef (n : nat) (c : coef) : Prop :=
  match c with Sc x => x <> 0%R | Vc v => (length v = n \/ length v = 1) /\ Forall (fun x => x <> 0%R) v end.
(* what fit leaves in a ShiftScaleTransformer for n rows: the attributes its options call for, of the right size, and a
   nonzero scaling *)
Definition ss_ready (n : nat) (s : ss) : Prop :=
  ss_n s = Some n /\
  (ss_cent s = true -> exists m, ss_mean s = Some m /\ length m = n) /\
  (ss_scaling s <> None ->
     if ss_byrow s then exists al be, ss_scale s = Some (Vc al) /\ ss_shift s = Some (Vc be) /\ length al = n /\ length be = n /\
                                      Forall (fun x => x <> 0%R) al
     else exists al be, ss_scale s = Some (Sc al) /\ ss_shift s = Some (Sc be) /\ al <> 0%R).
(* a transformer that is trained for n rows, with nonzero scalings *)
Fixpoint trained (n : nat) (t : tf) {struct t} : Prop :=
  match t with
  | TShift ref _ => length ref = n
  | TScale c d _ => d = Some n /\ nonzero_coef n c
  | TSS s => ss_ready n s
  | TNull d _ => d = Some n
  | TPipe l _ => l <> [] /\ (fix all (l : list tf) := match l with [] => True | t :: l' => trained n t /\ all l' end) l
  | TMulti l => l <> [] /\ (fix parts (l : list tf) (n : nat) := match l with [] => n = 0 | t :: l' =>
                              exists a b, n = a + b /\ trained a t /\ parts l' b end) l n
  end.
(* a transformer as the constructors leave it (and as any number of fits leaves it) *)
Fixpoint built (t : tf) : Prop :=
  match t with
  | TShift _ _ | TNull _ _ => True
  | TScale c d _ => coef_nz c = true /\ match c with Vc v => d = Some (length v) \/ (length v = 1 /\ d <> None) | Sc _ => True end
  | TSS s => ss_byrow s = true -> ss_scaling s <> Some Maxnorm /\ ss_scaling s <> Some Maxnormsym
  | TPipe l _ => l <> [] /\ (fix all (l : list tf) := match l with [] => True | t :: l' => built t /\ all l' end) l
  | TMulti l => l <> [] /\ (fix all (l : list tf) := match l with [] => True | t :: l' => built t /\ all l' end) l
  end.

(* no TransformerMulti inside, by-row scalers with one entry per row, and no ShiftScaleTransformer with byrow=True but
   without scaling *)
Fixpoint flat (t : tf) : Prop :=
  match t with
  | TShift _ _ | TNull _ _ => True
  | TScale (Vc v) d _ => d = Some (length v)
  | TScale (Sc _) _ _ => True
  | TSS s => ss_byrow s = true -> ss_scaling s <> None
  | TPipe l _ => (fix all (l : list tf) := match l with [] => True | t :: l' => flat t /\ all l' end) l
  | TMulti _ => False
  end.
(* the selection names rows idx of n *)
Definition selects (n : nat) (l : locsel) (idx : list nat) : Prop :=
  match l with
  | LIdx zs => Forall2 (fun z i => i < n /\ (z = Z.of_nat i \/ z = Z.of_nat i - Z.of_nat n)%Z) zs idx
  | LSlice s => idx = py_slice (p_start s) (p_stop s) (seq 0 n)
  end.

(* statistics *)
Definition is_min (m : R) (v : vec) : Prop := In m v /\ forall x, In x v -> (m <= x)%R.
Definition is_max (m : R) (v : vec) : Prop := In m v /\ forall x, In x v -> (x <= m)%R.
Definition mean_is (m : R) (v : vec) : Prop := (lsum v = INR (length v) * m)%R.
(* the mean of the squared deviations from the mean m is s^2 *)
Definition std_is (s m : R) (v : vec) : Prop := (lsum (map (fun x => (x - m) * (x - m)) v) = INR (length v) * (s * s))%R.
(* what byrow=True / byrow=False takes a statistic over: each row, or all entries *)
Definition groups (byrow : bool) (Y : mat) : list vec := if byrow then Y else [List.concat Y].
(* the norms of the columns of an n x k matrix *)
Definition colnorms (n k : nat) (Y : mat) : vec := map (fun j => sqrt (bsum n (fun i => mget Y i j * mget Y i j)%R)) (seq 0 k).
(* the documented effect of each scaling on the training data (n rows, k columns) *)
Definition documented (sc : scaling) (byrow : bool) (n k : nat) (Y : mat) : Prop :=
  match sc with
  | Standard => forall v, In v (groups byrow Y) -> mean_is 0 v /\ std_is 1 0 v
  | Minmax => forall v, In v (groups byrow Y) -> is_min 0 v /\ is_max 1 v
  | Minmaxsym => forall v, In v (groups byrow Y) -> is_min (-1) v /\ is_max 1 v
  | Maxabs => forall v, In v (groups byrow Y) -> is_max 1 (map Rabs v)
  | Maxabssym => forall v, In v (groups byrow Y) -> mean_is 0 v /\ is_max 1 (map Rabs v)
  | Maxnorm => is_max 1 (colnorms n k Y)
  | Maxnormsym => mean_is 0 (List.concat Y) /\ is_max 1 (colnorms n k Y)
  end.
(* data for which the scaling is defined *)
Definition varies (v : vec) : Prop := exists x y, In x v /\ In y v /\ x <> y.
Definition scalable (sc : scaling) (byrow : bool) (Y : mat) : Prop :=
  match sc with
  | Maxabs | Maxnorm => forall v, In v (groups byrow Y) -> exists x, In x v /\ x <> 0%R
  | _ => forall v, In v (groups byrow Y) -> varies v
  end.
(* the methods l1, l2, ... were called one after the other, each on the result of the one before *)
Inductive runs {T : Type} (f : T -> arr -> res arr) : list T -> arr -> arr -> Prop :=
| runs_nil a : runs f [] a a
| runs_cons t l a b c : f t a = Ok b -> runs f l b c -> runs f (t :: l) a c.
(* each member was fitted on the output of the members before it *)
Inductive trains : list tf -> arr -> list tf -> arr -> Prop :=
| trains_nil a : trains [] a [] a
| trains_cons t t' l l' a b c : fit_transform t a = Ok (t', b) -> trains l b l' c -> trains (t :: l) a (t' :: l') c.
(* rows from (inclusive) to (exclusive) *)
Definition rows (i j : nat) (a : arr) : arr :=
  match a with V v => V (firstn (j - i) (skipn i v)) | M m => M (firstn (j - i) (skipn i m)) end.
(* the rows of variable i, for variables of the given sizes *)
Definition var_rows (ns : list nat) (i : nat) (a : arr) : arr := rows (lsumn (firstn i ns)) (lsumn (firstn (S i) ns)) a.
(* the matrix with the mean of each row subtracted *)
Definition center_rows (Y : mat) : mat := map (fun row => map (fun x => x - vmean row)%R row) Y.
(* scalings that move no mean *)
Definition keeps_means (sc : option scaling) : Prop := match sc with Some Minmax | Some Minmaxsym => False | _ => True end.

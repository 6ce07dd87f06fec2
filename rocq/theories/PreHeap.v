(* PreHeap.v -- the inplace flag: the transformers of PreModel.v run on arrays in memory.
   Memory is a set of numbered cells; an array is the list (or list of rows) of the cells it shows, so views share cells
   with the array they were taken from.  The coefficients of a transformer are values here: an array handed to
   ShiftTransformer is kept by reference in the code, see shift_by_reference at the end.  A call returns the memory it
   leaves behind also when it raises.  No proofs here. *)
From Coq Require Import ZArith.
From Verif Require Export PreModel.
#[local] Open Scope nat_scope.

Record heap := { hcell : nat -> R; hnext : nat }.
Inductive harr := HV (l : list nat) | HM (m : list (list nat)).
Definition addrs (x : harr) : list nat := match x with HV l => l | HM m => concat m end.
Definition rd (h : heap) (x : harr) : arr := match x with HV l => V (map (hcell h) l) | HM m => M (map (map (hcell h)) m) end.
(* x[...] = w *)
Fixpoint hput (f : nat -> R) (l : list nat) (v : list R) : nat -> R :=
  match l, v with a :: l', x :: v' => hput (fun b => if b =? a then x else f b) l' v' | _, _ => f end.
Definition hwrite (h : heap) (x : harr) (w : arr) : heap := {| hcell := hput (hcell h) (addrs x) (aflat w); hnext := hnext h |}.
(* a new array with the value a: x.copy(), np.concatenate(...) *)
Fixpoint fresh_rows (i : nat) (m : mat) : list (list nat) :=
  match m with [] => [] | r :: m' => seq i (length r) :: fresh_rows (i + length r) m' end.
Definition fresh (i : nat) (a : arr) : harr := match a with V v => HV (seq i (length v)) | M m => HM (fresh_rows i m) end.
Definition alloc (h : heap) (a : arr) : heap * harr :=
  let x := fresh (hnext h) a in
  (hwrite {| hcell := hcell h; hnext := hnext h + length (aflat a) |} x a, x).
(* a view of rows i..j-1, and the consecutive views of the given sizes *)
Definition hslice (i j : nat) (x : harr) : harr := match x with HV l => HV (slice i j l) | HM m => HM (slice i j m) end.
Definition hsplit (sizes : list nat) (x : harr) : list harr :=
  let ds := dimsum sizes in map (fun i => hslice (nth i ds 0) (nth (S i) ds 0) x) (seq 0 (length sizes)).

(* ---- commands ------------------------------------------------------------------------------------------------ *)
Definition H (A : Type) : Type := heap -> heap * res A.
Definition hret {A} (a : A) : H A := fun h => (h, Ok a).
Definition hlift {A} (r : res A) : H A := fun h => (h, r).
Definition hbind {A B} (m : H A) (f : A -> H B) : H B :=
  fun h => match m h with (h', Ok a) => f a h' | (h', Err e) => (h', Err e) end.
Definition hread {A} (x : harr) (f : arr -> H A) : H A := fun h => f (rd h x) h.
Definition hnew (a : arr) : H harr := fun h => let '(h', x) := alloc h a in (h', Ok x).
(* Y op= c *)
Definition hstmt (s : stmt) (x : harr) : H unit :=
  fun h => match exec1 s (rd h x) with Ok w => (hwrite h x w, Ok tt) | Err e => (h, Err e) end.
Fixpoint hexec (p : list stmt) (x : harr) : H unit :=
  match p with [] => hret tt | s :: p' => hbind (hstmt s x) (fun _ => hexec p' x) end.
(* checks and coefficients; Y = states if inplace else states.copy(); statements; return Y
   (_shiftscale.py:277-280, 304, 335-344, 546-552, 616-628, 1047-1147, 1174-1188, 1220-1228, 1267-1291,
    _multi.py:222-223, 246-247, 271-272, 301-305) *)
Definition hleaf {B} (prog : arr -> res (B * list stmt)) (inplace : bool) (x : harr) : H (B * harr) :=
  hread x (fun a => hbind (hlift (prog a)) (fun bp =>
    hbind (if inplace then hret x else hnew a) (fun y => hbind (hexec (snd bp) y) (fun _ => hret (fst bp, y))))).
(* _chain: _multi.py:105-112, the first member with the caller's flag, the others in place *)
Definition hchain {T B} (op : T -> bool -> harr -> H (B * harr)) :=
  fix go (l : list T) (inplace : bool) (x : harr) {struct l} : H (list B * harr) :=
  match l with
  | [] => hret ([], x)
  | t :: l' => hbind (op t inplace x) (fun by_ => hbind (go l' true (snd by_)) (fun r => hret (fst by_ :: fst r, snd r)))
  end.
Definition hpipe {T B} (op : T -> bool -> harr -> H (B * harr)) (l : list T) (inplace : bool) (x : harr) : H (list B * harr) :=
  match l with [] => hlift (Err IndexError) | _ => hchain op l inplace x end.
(* _multi.py:120-128: the last member with the caller's flag, the others, in reverse, in place *)
Definition hchain_rev {T} (op : T -> bool -> harr -> H (unit * harr)) :=
  fix go (l : list T) (inplace : bool) (x : harr) {struct l} : H (unit * harr) :=
  match l with
  | [] => hret (tt, x)
  | t :: l' => hbind (go l' inplace x) (fun r => op t (match l' with [] => inplace | _ => true end) (snd r))
  end.
Definition hpipe_rev {T} (op : T -> bool -> harr -> H (unit * harr)) (l : list T) (inplace : bool) (x : harr) : H (unit * harr) :=
  match l with [] => hlift (Err IndexError) | _ => hchain_rev op l inplace x end.
(* [op(t, q) for t, q in zip(l, views)] *)
Definition hzip {T B} (op : T -> bool -> harr -> H (B * harr)) (inplace : bool) :=
  fix go (l : list T) (qs : list harr) {struct l} : H (list (B * harr)) :=
  match l, qs with
  | t :: l', q :: qs' => hbind (op t inplace q) (fun y => hbind (go l' qs') (fun ys => hret (y :: ys)))
  | _, _ => hret []
  end.
Definition hreads {A} (xs : list harr) (f : list arr -> H A) : H A := fun h => f (map (rd h) xs) h.
(* members on row views, np.concatenate, return states if inplace else the concatenation
   (_multi.py:594-603, 622-628, 651-657, 684-704) *)
Definition hmulti {T B} (blocks : arr -> res (list arr)) (op : T -> bool -> harr -> H (B * harr)) (l : list T) (inplace : bool) (x : harr) : H (list B * harr) :=
  hread x (fun a => hbind (hlift (blocks a)) (fun qs =>
    hbind (hzip op inplace l (hsplit (map alen qs) x)) (fun ys =>
    hreads (map snd ys) (fun vs => hbind (hlift (aconcat vs)) (fun b =>
    hbind (hnew b) (fun y => hret (map fst ys, if inplace then x else y))))))).

(* ---- the methods ---------------------------------------------------------------------------------------------- *)
Definition hnone (m : H (list unit * harr)) : H (unit * harr) := hbind m (fun r => hret (tt, snd r)).
Definition with_tt (f : arr -> res (list stmt)) (a : arr) : res (unit * list stmt) := do p <- f a; Ok (tt, p).
Fixpoint htransform (t : tf) (inplace : bool) (x : harr) {struct t} : H (unit * harr) :=
  match t with
  | TPipe l _ => hnone (hpipe htransform l inplace x)
  | TMulti l => hnone (hmulti (multi_split (variable_sizes l)) htransform l inplace x)
  | _ => hleaf (with_tt (transform_prog t)) inplace x
  end.
Fixpoint htransform_ddts (t : tf) (inplace : bool) (x : harr) {struct t} : H (unit * harr) :=
  match t with
  | TPipe l _ => hnone (hpipe htransform_ddts l inplace x)
  | TMulti l => hnone (hmulti (multi_split (variable_sizes l)) htransform_ddts l inplace x)
  | _ => hleaf (with_tt (ddts_prog t)) inplace x
  end.
Fixpoint hinverse (locs : option locsel) (t : tf) (inplace : bool) (x : harr) {struct t} : H (unit * harr) :=
  match t with
  | TPipe l _ => hpipe_rev (hinverse locs) l inplace x
  | TMulti l => hnone (hmulti (multi_split_locs (variable_sizes l) locs) (hinverse locs) l inplace x)
  | _ => hleaf (with_tt (inverse_prog t locs)) inplace x
  end.
(* The statistics learned by ShiftScaleTransformer.fit_transform are read from Y between the statements; here they are
   computed from the value of the argument (PreModel.ss_fit), which is the same number. *)
Fixpoint hfit_from (nx : option nat) (t : tf) (inplace : bool) (x : harr) {struct t} : H (tf * harr) :=
  match t with
  | TPipe l nm => hbind (hpipe (hfit_from None) l inplace x) (fun r => hret (TPipe (fst r) nm, snd r))
  | TMulti l => hread x (fun a =>
      hbind (hlift (match allsome (variable_sizes l) with
                    | Some _ => Ok None
                    | None => raise_if negb (alen a mod length l =? 0) with DimensionalityError;; Ok (Some (alen a / length l))
                    end)) (fun nx' =>
      let l0 := match nx' with None => l | Some nx => map (tf_set_base nx) l end in
      hbind (hmulti (multi_split (variable_sizes l0)) (hfit_from nx') l inplace x) (fun r => hret (TMulti (fst r), snd r))))
  | _ => hleaf (fit_prog (match nx with None => t | Some nx => tf_set_base nx t end)) inplace x
  end.
Definition hfit_transform (t : tf) := hfit_from None t.

(* ---- a ShiftTransformer whose reference snapshot is an array in memory --------------------------------------------- *)
(* ShiftTransformer(reference).transform(x, inplace=True) then .inverse_transform of the result: the constructor stores
   the array it is given (_shiftscale.py:186), it does not copy it *)
Definition shift_inplace (ref : list nat) (x : harr) : H harr :=
  hread (HV ref) (fun r => hread x (fun a =>
    hbind (hlift (check_shape (Some (length ref)) a)) (fun _ =>
    hbind (hstmt (Stmt ISub (Vc (aflat r))) x) (fun _ => hret x)))).
Definition unshift_inplace (ref : list nat) (x : harr) : H harr :=
  hread (HV ref) (fun r => hread x (fun a =>
    hbind (hlift (check_shape (Some (length ref)) a)) (fun _ =>
    hbind (hstmt (Stmt IAdd (Vc (aflat r))) x) (fun _ => hret x)))).

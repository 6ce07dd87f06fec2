(* HdfModel.v -- utils/_hdf5.py: HDF5 files, the file handles used by every save() and load(), and the tools for sparse
   arrays.  An HDF5 group is a tree; a save() method is the list of the h5py calls it makes, in order, so that it can be
   cut short by a crash.  The contents of an array are stored exactly (HDF5's own contract).  Strings contain no NUL
   character.  The warning about the extension .h5 is left out.  No proofs here. *)
From Coq Require Import ZArith String DecimalString.
From Verif Require Export EntriesModel.
#[local] Open Scope nat_scope.
#[local] Open Scope list_scope.
Notation str := String.string (only parsing).

(* values of attributes *)
Inductive aval := AvS (s : str) | AvB (b : bool) | AvI (z : Z) | AvR (x : R).
(* datasets: a single number, arrays with one, two or three axes, integers, numbers that may be infinite *)
Inductive dval := D0 (x : R) | DV (v : vec) | DM (m : mat) | DT (l : list mat) | DZ (l : list Z) | DF (l : list fl).
Inductive node := Dset (attrs : list (str * aval)) (d : dval) | Grp (attrs : list (str * aval)) (members : list (str * node)).

Fixpoint assoc {A} (k : str) (l : list (str * A)) : option A :=
  match l with [] => None | (k', a) :: t => if String.eqb k k' then Some a else assoc k t end.
Definition kids (g : node) : list (str * node) := match g with Grp _ l => l | Dset _ _ => [] end.
Definition attrs_of (g : node) : list (str * aval) := match g with Grp a _ | Dset a _ => a end.
(* x.attrs[key] = v *)
Fixpoint aset (k : str) (v : aval) (l : list (str * aval)) : list (str * aval) :=
  match l with [] => [(k, v)] | (k', a) :: t => if String.eqb k k' then (k, v) :: t else (k', a) :: aset k v t end.
(* hf[nm].attrs[key] = v *)
Fixpoint nset (nm k : str) (v : aval) (l : list (str * node)) : option (list (str * node)) :=
  match l with
  | [] => None
  | (nm', n) :: t =>
      if String.eqb nm nm'
      then Some ((nm', match n with Dset a d => Dset (aset k v a) d | Grp a m => Grp (aset k v a) m end) :: t)
      else option_map (cons (nm', n)) (nset nm k v t)
  end.

(* ---- writing ------------------------------------------------------------------------------------------------------- *)
(* one call: create_dataset (of something without an HDF5 equivalent: None), an attribute of a dataset or of the group
   itself, create_group and what is then written in it, or an exception raised between two calls *)
Inductive wev :=
| EData (nm : str) (d : option dval)
| EAttr (nm key : str) (v : aval)
| ESelf (key : str) (v : aval)
| EGroup (nm : str) (evs : list wev)
| ERaise (e : err).
Inductive wstat := Done | Raised (e : err) | Killed.
Definition gst := (list (str * aval) * list (str * node))%type.
(* the process is killed after k more calls (None: never) *)
Definition tick (k : option nat) (old new : gst) : gst * wstat * option nat :=
  match k with None => (new, Done, None) | Some 0 => (old, Killed, Some 0) | Some (S k') => (new, Done, Some k') end.
Fixpoint wexec (ev : wev) (k : option nat) (g : gst) {struct ev} : gst * wstat * option nat :=
  match ev with
  | ERaise e => (g, Raised e, k)
  | EData _ None => (g, Raised TypeError, k)
  | EData nm (Some d) => match assoc nm (snd g) with
                         | Some _ => (g, Raised ValueError, k)
                         | None => tick k g (fst g, snd g ++ [(nm, Dset [] d)])
                         end
  | EAttr nm key v => match nset nm key v (snd g) with
                      | None => (g, Raised KeyError, k)
                      | Some l => tick k g (fst g, l)
                      end
  | ESelf key v => tick k g (aset key v (fst g), snd g)
  | EGroup nm evs =>
      match assoc nm (snd g) with
      | Some _ => (g, Raised ValueError, k)
      | None =>
          match k with
          | Some 0 => (g, Killed, k)
          | _ =>
              let k' := option_map pred k in
              let '(sub, s, k2) :=
                (fix go (evs : list wev) (k : option nat) (g : gst) {struct evs} : gst * wstat * option nat :=
                   match evs with
                   | [] => (g, Done, k)
                   | e :: t => match wexec e k g with (g', Done, k') => go t k' g' | x => x end
                   end) evs k' ([], []) in
              ((fst g, snd g ++ [(nm, Grp (fst sub) (snd sub))]), s, k2)
          end
      end
  end.
Fixpoint wexecs (evs : list wev) (k : option nat) (g : gst) {struct evs} : gst * wstat * option nat :=
  match evs with
  | [] => (g, Done, k)
  | e :: t => match wexec e k g with (g', Done, k') => wexecs t k' g' | x => x end
  end.

(* ---- files ---------------------------------------------------------------------------------------------------------- *)
(* a regular file holds an HDF5 tree, or something h5py cannot open; the path may also be a directory *)
Inductive fobj := File (c : option node) | Dir.
Definition fs := str -> option fobj.
Definition fset (p : str) (x : fobj) (f : fs) : fs := fun q => if String.eqb p q then Some x else f q.
(* how the outside world treats one save: may the path be opened for writing; is the process killed after k calls, and
   is the file then still readable *)
Record world := { w_open : bool; w_kill : option (nat * bool) }.
(* hdf5_savehandle and the body of the with statement: _hdf5.py:38-75, 98-99.  h5py.File(path, "w") empties the file *)
Definition save_file (w : world) (f : fs) (path : str) (overwrite : bool) (evs : list wev) : fs * wstat :=
  match f path, overwrite with
  | Some (File _), false => (f, Raised FileExistsError)
  | Some Dir, _ => (f, Raised OtherError)
  | _, _ =>
      if w_open w then
        let '(g, s, _) := wexecs evs (option_map fst (w_kill w)) ([], []) in
        (fset path (File (match s, w_kill w with Killed, Some (_, false) => None | _, _ => Some (Grp (fst g) (snd g)) end)) f, s)
      else (f, Raised OtherError)
  end.

(* an exception in the body of "with hdf5_loadhandle": _hdf5.py:118-129 (exceptions always carry a message here) *)
Definition guarded {A} (x : res A) : res A := match x with Ok a => Ok a | Err _ => Err LoadfileFormatError end.
(* hdf5_loadhandle: 57-62 *)
Definition load_file {A} (f : fs) (path : str) (body : node -> res A) : res A :=
  match f path with
  | Some (File (Some g)) => guarded (body g)
  | Some (File None) => Err OtherError
  | _ => Err FileNotFoundError
  end.

(* ---- reading --------------------------------------------------------------------------------------------------------- *)
Definition has (nm : str) (g : node) : bool := match assoc nm (kids g) with Some _ => true | None => false end.
Definition item (nm : str) (g : node) : res node := match assoc nm (kids g) with Some n => Ok n | None => Err KeyError end.
Definition attr (k : str) (g : node) : res aval := match assoc k (attrs_of g) with Some v => Ok v | None => Err KeyError end.
Definition meta_attr (k : str) (g : node) : res aval := do n <- item "meta" g; attr k n.
Definition dset (nm : str) (g : node) : res dval := do n <- item nm g; match n with Dset _ d => Ok d | Grp _ _ => Err OtherError end.
Definition as_str (v : aval) : res str := match v with AvS s => Ok s | _ => Err OtherError end.
Definition as_bool (v : aval) : res bool := match v with AvB b => Ok b | _ => Err OtherError end.
Definition as_int (v : aval) : res Z := match v with AvI z => Ok z | _ => Err OtherError end.
Definition as_vec (d : dval) : res vec := match d with DV v => Ok v | _ => Err OtherError end.
Definition as_mat (d : dval) : res mat := match d with DM m => Ok m | _ => Err OtherError end.
Definition as_ten (d : dval) : res (list mat) := match d with DT l => Ok l | _ => Err OtherError end.
Definition as_ints (d : dval) : res (list Z) := match d with DZ l => Ok l | _ => Err OtherError end.
Definition head0 {A} (l : list A) : res A := match l with a :: _ => Ok a | [] => Err IndexError end.

(* f"{i}" and f"{i:0>2d}" *)
Definition dec (i : nat) : str := NilEmpty.string_of_uint (Nat.to_uint i).
Definition dec2 (i : nat) : str := let s := dec i in if String.length s <? 2 then String.append "0" s else s.
(* for i, x in enumerate(l): x.save(hf.create_group(name i)) *)
Definition egroups {A} (name : nat -> str) (save : A -> list wev) : nat -> list A -> list wev :=
  fix go i l := match l with [] => [] | x :: t => EGroup (name i) (save x) :: go (S i) t end.
(* [load_i(hf[name i]) for i in range(n)] with one loader per index *)
Definition lgroups {A} (name : nat -> str) (g : node) : nat -> list (node -> res A) -> res (list A) :=
  fix go i l := match l with [] => Ok [] | ld :: t => do n <- item (name i) g; do a <- ld n; do r <- go (S i) t; Ok (a :: r) end.

(* ---- sparse arrays: _hdf5.py:176-185, 235-240 --------------------------------------------------------------------------- *)
(* scipy.sparse: the coordinates and values of an array, and the conversion back to a format *)
Record sparse (A : Type) := { sp_tocoo : A -> vec * list Z * list Z; sp_shape : A -> Z * Z; sp_format : A -> str;
                              sp_make : str -> Z * Z -> vec * list Z * list Z -> res A }.
Arguments sp_tocoo {A} _. Arguments sp_shape {A} _. Arguments sp_format {A} _. Arguments sp_make {A} _.
(* (the shape is stored as two integer attributes here; h5py stores one attribute holding two integers) *)
Definition save_sparray {A} (Y : sparse A) (a : A) : list wev :=
  let '(x, i, j) := sp_tocoo Y a in
  [EData "data" (Some (DV x)); EData "row" (Some (DZ i)); EData "col" (Some (DZ j));
   ESelf "shape0" (AvI (fst (sp_shape Y a))); ESelf "shape1" (AvI (snd (sp_shape Y a))); ESelf "arrtype" (AvS (sp_format Y a))].
Definition load_sparray {A} (Y : sparse A) (g : node) : res A :=
  do d <- dset "data" g; do x <- as_vec d; do d <- dset "row" g; do i <- as_ints d; do d <- dset "col" g; do j <- as_ints d;
  do a <- attr "shape0" g; do n <- as_int a; do a <- attr "shape1" g; do m <- as_int a;
  do a <- attr "arrtype" g; do t <- as_str a;
  sp_make Y t (n, m) (x, i, j).

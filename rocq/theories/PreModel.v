(* PreModel.v -- preprocessing: pre/_base.py, pre/_shiftscale.py, pre/_multi.py.
   Scalars are reals.  Where numpy would put inf or nan in an array (division by zero, mean of nothing) the model
   stops with OtherError.  This file treats arrays as values: the inplace flag is in PreHeap.v.  Printing (verbose)
   and warnings have no effect on results and are left out.  No proofs here. *)
From Coq Require Import ZArith String DecimalString.
From Verif Require Export DdtModel.
#[local] Open Scope nat_scope.
#[local] Open Scope list_scope.
Notation pystr := String.string (only parsing).
Notation length := List.length.

(* ---- in-place arithmetic on arrays --------------------------------------------------------------------- *)
(* x.shape[0] *)
Definition alen (a : arr) : nat := match a with V v => length v | M m => length m end.
(* a coefficient: a scalar, or one number per row *)
Inductive coef : Type := Sc (x : R) | Vc (v : vec).
Inductive aop := IAdd | ISub | IMul | IDiv.
Definition aop_fun (o : aop) : R -> R -> R := match o with IAdd => Rplus | ISub => Rminus | IMul => Rmult | IDiv => Rdiv end.
(* Y op= c   /   Y op= c.reshape((-1, 1)) if Y.ndim > 1 else c *)
Record stmt := Stmt { s_op : aop; s_coef : coef }.
Definition rowop (f : R -> R -> R) (v : vec) (a : arr) : arr :=
  match a with V u => V (map2 f u v) | M m => M (map2 (fun row x => map (fun y => f y x) row) m v) end.
Definition allop (f : R -> R -> R) (c : R) (a : arr) : arr :=
  match a with V u => V (map (fun y => f y c) u) | M m => M (map (map (fun y => f y c)) m) end.
Definition isnz (x : R) : bool := if Req_EM_T x 0 then false else true.
Definition coef_nz (c : coef) : bool := match c with Sc x => isnz x | Vc v => forallb isnz v end.
(* numpy broadcasting of an (m,) or (m, 1) array against n rows, in place: m must be n or 1 *)
Definition bcast (n : nat) (v : vec) : res vec :=
  if length v =? n then Ok v else match v with [x] => Ok (repeat x n) | _ => Err ValueError end.
Definition exec1 (s : stmt) (a : arr) : res arr :=
  raise_if (match s_op s with IDiv => negb (coef_nz (s_coef s)) | _ => false end) with OtherError;;
  match s_coef s with
  | Sc c => Ok (allop (aop_fun (s_op s)) c a)
  | Vc v => do w <- bcast (alen a) v; Ok (rowop (aop_fun (s_op s)) w a)
  end.
(* run f on each element in turn, threading the value: for tf in l: Y = f(tf, Y) *)
Definition chain {T X} (f : T -> X -> res X) := fix go (l : list T) (a : X) {struct l} : res X :=
  match l with [] => Ok a | t :: l' => do b <- f t a; go l' b end.
Definition exec : list stmt -> arr -> res arr := chain exec1.

(* rows i0, i1, ... of an array *)
Definition asel (idx : list nat) (a : arr) : arr :=
  match a with V v => V (take_at 0%R v idx) | M m => M (take_at [] m idx) end.
(* a[i:j] *)
Definition aslice (i j : nat) (a : arr) : arr := match a with V v => V (slice i j v) | M m => M (slice i j m) end.
(* np.concatenate(l): all arrays of the same number of dimensions, two-dimensional ones of equal widths *)
Definition a_isV (a : arr) : option vec := match a with V v => Some v | _ => None end.
Definition a_isM (a : arr) : option mat := match a with M m => Some m | _ => None end.
Fixpoint allsome {A} (l : list (option A)) : option (list A) :=
  match l with [] => Some [] | None :: _ => None | Some a :: l' => option_map (cons a) (allsome l') end.
Definition aconcat (l : list arr) : res arr :=
  match l with
  | [] => Err ValueError
  | V _ :: _ => match allsome (map a_isV l) with Some vs => Ok (V (List.concat vs)) | None => Err ValueError end
  | M _ :: _ => match allsome (map a_isM l) with Some ms => Ok (M (List.concat ms)) | None => Err ValueError end
  end.

(* ---- locs ---------------------------------------------------------------------------------------------- *)
(* an integer array or a slice (step 1); boolean masks are not modelled *)
Inductive locsel := LIdx (l : list Z) | LSlice (s : pslice).
Definition check_shape (n : option nat) (a : arr) : res unit :=            (* _base.py:80-85 *)
  match n with Some n' => if alen a =? n' then Ok tt else Err ValueError | None => Ok tt end.
Definition check_locs (n : option nat) (l : locsel) (a : arr) : res (list Z) :=   (* _base.py:87-93 *)
  do idx <- match l with
            | LIdx idx => Ok idx
            | LSlice s => match n with
                          | None => Err TypeError
                          | Some n' => Ok (map Z.of_nat (py_slice (p_start s) (p_stop s) (seq 0 n')))
                          end
            end;
  if alen a =? length idx then Ok idx else Err ValueError.
(* v[idx] for an integer array: negative indices count from the end *)
Definition norm_index (n : nat) (z : Z) : res nat :=
  let z' := (if z <? 0 then z + Z.of_nat n else z)%Z in
  if ((0 <=? z') && (z' <? Z.of_nat n))%Z then Ok (Z.to_nat z') else Err IndexError.
Definition vtake (v : vec) (idx : list Z) : res vec :=
  do l <- mapM (norm_index (length v)) idx; Ok (take_at 0%R v l).

(* ---- shift(), scale() ---------------------------------------------------------------------------------- *)
Definition mean_nz (v : vec) : res R := match v with [] => Err OtherError | _ => Ok (vmean v) end.   (* np.mean *)
Definition vmin (v : vec) : res R := match v with [] => Err ValueError | x :: v' => Ok (fold_left Rmin v' x) end.
Definition vmax (v : vec) : res R := match v with [] => Err ValueError | x :: v' => Ok (fold_left Rmax v' x) end.
(* shift: _shiftscale.py:54-70.  The second component is returned only when shift_by is not given. *)
Definition shift_fn (states : arr) (shift_by : option arr) : res (arr * option vec) :=
  match states with
  | V _ => Err ValueError
  | M Q =>
      do sb <- match shift_by with None => do m <- mapM mean_nz Q; Ok (V m) | Some x => Ok x end;
      do v <- match sb with V v => Ok v | M A => if ncols A =? 1 then Ok (map (fun row => nth 0 row 0%R) A) else Err ValueError end;
      do w <- bcast (length Q) v;
      Ok (rowop Rminus w states, match shift_by with None => Some v | Some _ => None end)
  end.
(* scale: _shiftscale.py:120-136 *)
Definition aflat (a : arr) : vec := match a with V v => v | M m => List.concat m end.
Definition scale_fn (states : arr) (scale_to : list R) (scale_from : option (list R)) : res (arr * option (list R)) :=
  do sf <- match scale_from with
           | None => do lo <- vmin (aflat states); do hi <- vmax (aflat states); Ok [lo; hi]
           | Some l => Ok l
           end;
  match scale_to, sf with
  | [mini; maxi], [xmin; xmax] =>
      raise_if negb (isnz (xmax - xmin)) with OtherError;;
      let scl := ((maxi - mini) / (xmax - xmin))%R in
      Ok (allop Rplus (mini - xmin * scl)%R (allop Rmult scl states), match scale_from with None => Some sf | Some _ => None end)
  | _, _ => Err ValueError
  end.

(* ---- ShiftScaleTransformer ------------------------------------------------------------------------------ *)
Inductive scaling := Standard | Minmax | Minmaxsym | Maxabs | Maxabssym | Maxnorm | Maxnormsym.
Record ss := { ss_cent : bool; ss_scaling : option scaling; ss_byrow : bool; ss_name : option pystr;
               ss_n : option nat; ss_mean : option vec; ss_scale : option coef; ss_shift : option coef }.
(* __init__: _shiftscale.py:849-880 (scaling is None or one of the seven names) *)
Definition ss_init (cent : bool) (sc : option scaling) (byrow : bool) (name : option pystr) : res ss :=
  raise_if (byrow && match sc with Some Maxnorm | Some Maxnormsym => true | _ => false end) with ValueError;;
  Ok {| ss_cent := cent; ss_scaling := sc; ss_byrow := byrow; ss_name := name;
        ss_n := None; ss_mean := None; ss_scale := None; ss_shift := None |}.
Definition is_none {A} (x : option A) : bool := match x with None => true | Some _ => false end.
(* _is_trained: 1009-1017 *)
Definition ss_is_trained (s : ss) : bool :=
  negb ((ss_cent s && is_none (ss_mean s))
        || (negb (is_none (ss_scaling s)) && (is_none (ss_scale s) || is_none (ss_shift s)))).
Definition ss_check_trained (s : ss) : res unit := if ss_is_trained s then Ok tt else Err AttributeError.
(* scale_ / shift_ as used with byrow (an array) or without (a scalar); a scalar with byrow has no reshape, an array
   without byrow is outside the model *)
Definition ss_coef (byrow : bool) (c : option coef) : res coef :=
  match byrow, c with
  | _, None => Err TypeError
  | true, Some (Vc v) => Ok (Vc v)
  | false, Some (Sc x) => Ok (Sc x)
  | true, Some (Sc _) => Err AttributeError
  | false, Some (Vc _) => Err OtherError
  end.
Definition ss_mean_prog (o : aop) (m : option vec) : res (list stmt) :=
  match m with Some v => Ok [Stmt o (Vc v)] | None => Err AttributeError end.
(* transform: 1174-1188; the list of in-place statements *)
Definition ss_transform_prog (s : ss) (a : arr) : res (list stmt) :=
  do _ <- ss_check_trained s;
  do _ <- check_shape (ss_n s) a;
  do p1 <- (if ss_cent s then ss_mean_prog ISub (ss_mean s) else Ok []);
  do p2 <- match ss_scaling s with
           | None => Ok []
           | Some _ => do al <- ss_coef (ss_byrow s) (ss_scale s);
                       do be <- ss_coef (ss_byrow s) (ss_shift s);
                       Ok [Stmt IMul al; Stmt IAdd be]
           end;
  Ok (p1 ++ p2).
(* transform_ddts: 1220-1228 *)
Definition ss_ddts_prog (s : ss) (a : arr) : res (list stmt) :=
  do _ <- ss_check_trained s;
  do _ <- check_shape (ss_n s) a;
  match ss_scaling s with
  | None => Ok []
  | Some _ => do al <- ss_coef (ss_byrow s) (ss_scale s); Ok [Stmt IMul al]
  end.
(* shift_[locs] (None[locs] raises TypeError) *)
Definition coef_take (c : option coef) (idx : list Z) : res (option coef) :=
  match c with
  | None => Err TypeError
  | Some (Vc v) => do w <- vtake v idx; Ok (Some (Vc w))
  | Some (Sc _) => Err TypeError
  end.
(* inverse_transform: 1267-1291 *)
Definition ss_inverse_prog (s : ss) (locs : option locsel) (a : arr) : res (list stmt) :=
  do _ <- ss_check_trained s;
  do cs <- match locs with
           | Some l => do idx <- check_locs (ss_n s) l a;
                       if ss_byrow s then
                         do be <- coef_take (ss_shift s) idx; do al <- coef_take (ss_scale s) idx; Ok (be, al, Some idx)
                       else Ok (ss_shift s, ss_scale s, Some idx)
           | None => do _ <- check_shape (ss_n s) a; Ok (ss_shift s, ss_scale s, None)
           end;
  let '(be, al, idx) := cs in
  do p1 <- match ss_scaling s with
           | None => Ok []
           | Some _ => do be' <- ss_coef (ss_byrow s) be; do al' <- ss_coef (ss_byrow s) al; Ok [Stmt ISub be'; Stmt IDiv al']
           end;
  do p2 <- (if ss_cent s then
              match ss_mean s, idx with
              | None, None => Err AttributeError
              | None, Some _ => Err TypeError
              | Some m, None => Ok [Stmt IAdd (Vc m)]
              | Some m, Some l => do m' <- vtake m l; Ok [Stmt IAdd (Vc m')]
              end
            else Ok []);
  Ok (p1 ++ p2).

(* a statistic over all entries (axis=None) or over each row (axis=1) *)
Definition stat (f : vec -> res R) (byrow : bool) (Y : mat) : res coef :=
  if byrow then do l <- mapM f Y; Ok (Vc l) else do x <- f (List.concat Y); Ok (Sc x).
Definition vstd (v : vec) : res R :=                                        (* np.std: population *)
  do mu <- mean_nz v; Ok (sqrt (vmean (map (fun x => (x - mu) * (x - mu))%R v))).
Definition cmap (f : R -> R) (c : coef) : coef := match c with Sc x => Sc (f x) | Vc v => Vc (map f v) end.
Definition cmap2 (f : R -> R -> R) (c d : coef) : res coef :=
  match c, d with
  | Sc x, Sc y => Ok (Sc (f x y))
  | Vc u, Vc v => if length u =? length v then Ok (Vc (map2 f u v)) else Err ValueError
  | _, _ => Err OtherError
  end.
(* x / c *)
Definition cover (x : R) (c : coef) : res coef := if coef_nz c then Ok (cmap (fun y => x / y)%R c) else Err OtherError.
Definition arr_mat (a : arr) : mat := match a with M m => m | V v => [v] end.
(* the scale_, the shift_ and the in-place statements run on Y meanwhile: fit_transform 1072-1126 *)
Definition ss_learn (sc : scaling) (byrow : bool) (Y : mat) : res (coef * coef * list stmt) :=
  match sc with
  | Standard =>                                                             (* 1072-1076 *)
      do mu <- stat mean_nz byrow Y; do sigma <- stat vstd byrow Y;
      do al <- cover 1 sigma; do be <- cmap2 Rmult (cmap Ropp mu) al; Ok (al, be, [])
  | Minmax =>                                                               (* 1079-1083 *)
      do lo <- stat vmin byrow Y; do hi <- stat vmax byrow Y; do d <- cmap2 Rminus hi lo;
      do al <- cover 1 d; do be <- cmap2 Rmult (cmap Ropp lo) al; Ok (al, be, [])
  | Minmaxsym =>                                                            (* 1086-1090 *)
      do lo <- stat vmin byrow Y; do hi <- stat vmax byrow Y; do d <- cmap2 Rminus hi lo;
      do al <- cover 2 d; do be <- cmap2 Rmult (cmap Ropp lo) al; Ok (al, cmap (fun x => x - 1)%R be, [])
  | Maxabs =>                                                               (* 1093-1097 *)
      do m <- stat vmax byrow (map (map Rabs) Y); do al <- cover 1 m;
      Ok (al, (if byrow then Vc (vzeros (length Y)) else Sc 0), [])
  | Maxabssym =>                                                            (* 1100-1105 *)
      do mu <- stat mean_nz byrow Y;
      do Z <- exec1 (Stmt ISub mu) (M Y);
      do m <- stat vmax byrow (map (map Rabs) (arr_mat Z)); do al <- cover 1 m;
      do be <- cmap2 Rmult (cmap Ropp mu) al; Ok (al, be, [Stmt ISub mu; Stmt IAdd mu])
  | Maxnorm =>                                                              (* 1108-1116 *)
      raise_if byrow with RuntimeError;;
      do m <- vmax (map (fun c => sqrt (vnorm2 c)) (mT Y));
      do al <- cover 1 (Sc m); Ok (al, Sc 0, [])
  | Maxnormsym =>                                                           (* 1119-1126 *)
      raise_if byrow with RuntimeError;;
      do mu <- mean_nz (List.concat Y);
      do m <- vmax (map (fun c => sqrt (vnorm2 c)) (mT (map (map (fun y => y - mu)%R) Y)));
      do al <- cover 1 (Sc m); do be <- cmap2 Rmult (cmap Ropp (Sc mu)) al; Ok (al, be, [])
  end.
(* fit_transform: 1047-1147; the new attributes and the in-place statements run on Y *)
Definition ss_fit (s : ss) (a : arr) : res (ss * list stmt) :=
  match a with
  | V _ => Err ValueError
  | M Y0 =>
      do mp <- (if ss_cent s then do mu <- mapM mean_nz Y0; Ok (Some mu, [Stmt ISub (Vc mu)]) else Ok (ss_mean s, []));
      let '(mean, p1) := mp in
      do Y1 <- exec p1 (M Y0);
      do lp <- match ss_scaling s with
               | None => Ok (ss_scale s, ss_shift s, [])
               | Some sc => do lb <- ss_learn sc (ss_byrow s) (arr_mat Y1);
                            let '(al, be, p2) := lb in
                            Ok (Some al, Some be, p2 ++ [Stmt IMul al; Stmt IAdd be])
               end;
      let '(al, be, p3) := lp in
      Ok ({| ss_cent := ss_cent s; ss_scaling := ss_scaling s; ss_byrow := ss_byrow s; ss_name := ss_name s;
             ss_n := Some (length Y0); ss_mean := mean; ss_scale := al; ss_shift := be |}, p1 ++ p3)
  end.

(* ---- the transformer classes ------------------------------------------------------------------------------ *)
(* a pipeline may contain any of them, a TransformerMulti any but another TransformerMulti *)
Inductive tf : Type :=
| TShift (ref : vec) (name : option pystr)                          (* _shiftscale.py:140 *)
| TScale (scl : coef) (n : option nat) (name : option pystr)        (* _shiftscale.py:363 *)
| TSS (s : ss)                                                      (* _shiftscale.py:654 *)
| TNull (n : option nat) (name : option pystr)                      (* _multi.py:176 *)
| TPipe (l : list tf) (name : option pystr)                         (* _multi.py:18 *)
| TMulti (l : list tf).                                             (* _multi.py:326 *)

(* state_dimension: ShiftTransformer 195-197, base 48-50, TransformerPipeline 84-89, TransformerMulti 426-432 *)
Fixpoint tf_dim (t : tf) : option nat :=
  match t with
  | TShift ref _ => Some (length ref)
  | TScale _ n _ | TNull n _ => n
  | TSS s => ss_n s
  | TPipe l _ => (fix go (l : list tf) := match l with [] => None | t :: l' => match tf_dim t with Some r => Some r | None => go l' end end) l
  | TMulti l => (fix go (l : list tf) := match l with [] => Some 0 | t :: l' =>
                   match tf_dim t, go l' with Some a, Some b => Some (a + b) | _, _ => None end end) l
  end.
Definition variable_sizes (l : list tf) : list (option nat) := map tf_dim l.        (* _multi.py:419-423 *)

(* constructors *)
Definition mk_shift (ref : arr) (name : option pystr) : res tf :=                   (* _shiftscale.py:175-186 *)
  match ref with V v => Ok (TShift v name) | M _ => Err TypeError end.
Definition mk_scale (scl : coef) (name : option pystr) : res tf :=                  (* _shiftscale.py:410-428 *)
  if coef_nz scl then Ok (TScale scl (match scl with Vc v => Some (length v) | Sc _ => None end) name) else Err TypeError.
Definition mk_ss (cent : bool) (sc : option scaling) (byrow : bool) (name : option pystr) : res tf :=
  do s <- ss_init cent sc byrow name; Ok (TSS s).
Definition mk_null (name : option pystr) : tf := TNull None name.
Inductive pyseq (A : Type) := PList (l : list A) | PTuple (l : list A).
Arguments PList {A} _. Arguments PTuple {A} _.
Definition consistent_dims (l : list (option nat)) : bool :=
  match List.concat (map (fun d => match d with Some n => [n] | None => [] end) l) with
  | [] => true
  | n :: ns => forallb (Nat.eqb n) ns
  end.
Definition mk_pipe (l : pyseq tf) (name : option pystr) : res tf :=                 (* _multi.py:41-68 *)
  match l with
  | PTuple _ => Err TypeError
  | PList l => if consistent_dims (map tf_dim l) then Ok (TPipe l name) else Err ValueError
  end.
Definition variable_name (i : nat) : pystr := String.append "variable " (NilEmpty.string_of_uint (Nat.to_uint i)).
Definition tf_name (t : tf) : option pystr :=
  match t with TShift _ nm | TScale _ _ nm | TNull _ nm | TPipe _ nm => nm | TSS s => ss_name s | TMulti _ => None end.
Definition ss_set (s : ss) (nm : option pystr) (n : option nat) : ss :=
  {| ss_cent := ss_cent s; ss_scaling := ss_scaling s; ss_byrow := ss_byrow s; ss_name := nm;
     ss_n := n; ss_mean := ss_mean s; ss_scale := ss_scale s; ss_shift := ss_shift s |}.
Definition tf_set_name (nm : option pystr) (t : tf) : tf :=
  match t with
  | TShift r _ => TShift r nm | TScale c n _ => TScale c n nm | TNull n _ => TNull n nm | TPipe l _ => TPipe l nm
  | TSS s => TSS (ss_set s nm (ss_n s)) | TMulti l => TMulti l
  end.
(* TransformerTemplate.state_dimension.fset(tf, nx), called directly (_multi.py:592): writes the attribute of the base
   class, which ShiftTransformer and TransformerPipeline do not read *)
Definition tf_set_base (nx : nat) (t : tf) : tf :=
  match t with
  | TScale c _ nm => TScale c (Some nx) nm
  | TNull _ nm => TNull (Some nx) nm
  | TSS s => TSS (ss_set s (ss_name s) (Some nx))
  | TShift _ _ | TPipe _ _ | TMulti _ => t
  end.
(* tf.state_dimension = ni when it was None (a pipeline has no setter: AttributeError) *)
Definition tf_assign_dim (ni : nat) (t : tf) : res tf :=
  match t with TPipe _ _ | TMulti _ => Err AttributeError | _ => Ok (tf_set_base ni t) end.
Definition mk_multi (l : list (option tf)) (sizes : option (list nat)) : res tf :=   (* _multi.py:366-400 *)
  match l with
  | [] => Err ValueError
  | _ =>
      let tfs := map (fun t => match t with None => mk_null None | Some t => t end) l in
      do tfs <- mapM (fun it => match snd it with
                                | TMulti _ => Err AttributeError
                                | t => Ok (match tf_name t with None => tf_set_name (Some (variable_name (fst it))) t | Some _ => t end)
                                end) (combine (seq 0 (length tfs)) tfs);
      match sizes with
      | None => Ok (TMulti tfs)
      | Some ns =>
          raise_if negb (length ns =? length tfs) with ValueError;;
          do tfs <- mapM (fun x => let '(t, ni) := x in
                            match tf_dim t with
                            | None => tf_assign_dim ni t
                            | Some n => if n =? ni then Ok t else Err ValueError
                            end) (combine tfs ns);
          Ok (TMulti tfs)
      end
  end.

(* ---- joining --------------------------------------------------------------------------------------------- *)
(* _chain: _multi.py:105-112 *)
Definition pipe {T X} (f : T -> X -> res X) (l : list T) (a : X) : res X :=
  match l with [] => Err IndexError | _ => chain f l a end.
(* inverse_transform: _multi.py:120-128: the last member first, then the others in reverse *)
Definition chain_rev {T X} (f : T -> X -> res X) := fix go (l : list T) (a : X) {struct l} : res X :=
  match l with [] => Ok a | t :: l' => do b <- go l' a; f t b end.
Definition pipe_rev {T X} (f : T -> X -> res X) (l : list T) (a : X) : res X :=
  match l with [] => Err IndexError | _ => chain_rev f l a end.
(* fit each member on the output of the previous ones *)
Definition chain_fit {T X} (f : T -> X -> res (T * X)) := fix go (l : list T) (a : X) {struct l} : res (list T * X) :=
  match l with
  | [] => Ok ([], a)
  | t :: l' => do tb <- f t a; let '(t', b) := tb in do rest <- go l' b; let '(ts, c) := rest in Ok (t' :: ts, c)
  end.
Definition pipe_fit {T X} (f : T -> X -> res (T * X)) (l : list T) (a : X) : res (list T * X) :=
  match l with [] => Err IndexError | _ => chain_fit f l a end.

(* _slices: _multi.py:499-508 with np.cumsum((0,) + variable_sizes) *)
Definition dimsum (sizes : list nat) : list nat := cumsum (0 :: sizes).
Definition split_rows (sizes : list nat) (a : arr) : list arr :=
  let ds := dimsum sizes in
  map (fun i => aslice (nth i ds 0) (nth (S i) ds 0) a) (seq 0 (length sizes)).
(* [f(tf, Q) for tf, Q in zip(l, qs)] *)
Definition zipM {T X Y} (f : T -> X -> res Y) := fix go (l : list T) (qs : list X) {struct l} : res (list Y) :=
  match l, qs with
  | t :: l', q :: qs' => do y <- f t q; do ys <- go l' qs'; Ok (y :: ys)
  | _, _ => Ok []
  end.
(* _check_shape: 476-482, with @requires_trained *)
Definition multi_check (dims : list (option nat)) (a : arr) : res (list nat) :=
  match allsome dims with
  | None => Err AttributeError
  | Some ns => if alen a =? lsumn ns then Ok ns else Err DimensionalityError
  end.
(* split: 543-544 *)
Definition multi_split (dims : list (option nat)) (a : arr) : res (list arr) :=
  do ns <- multi_check dims a; Ok (split_rows ns a).
(* transform, 622-628, and transform_ddts, 651-657: member by member on the blocks of rows *)
Definition multi_apply {T} (f : T -> arr -> res arr) (dims : list (option nat)) (l : list T) (a : arr) : res arr :=
  do qs <- multi_split dims a; do ys <- zipM f l qs; aconcat ys.
(* np.split(a, nq, axis=0) *)
Definition np_split (nq : nat) (a : arr) : res (list arr) :=
  if (alen a mod nq =? 0) then Ok (split_rows (repeat (alen a / nq) nq) a) else Err ValueError.
(* variables of inverse_transform: 684-696 *)
Definition all_same (l : list nat) : bool := match l with [] => true | n :: ns => forallb (Nat.eqb n) ns end.
Definition multi_split_locs (dims : list (option nat)) (locs : option locsel) (a : arr) : res (list arr) :=
  match allsome dims with
  | None => Err AttributeError
  | Some ns => match locs with
               | None => multi_split dims a
               | Some _ => raise_if negb (all_same ns) with ValueError;; np_split (length dims) a
               end
  end.
(* get_var: 525-528.  var is a name or an index; dimsum[var], dimsum[var + 1] with Python's negative indices *)
Inductive varsel := VName (s : pystr) | VIdx (z : Z).
Fixpoint index_of (s : pystr) (names : list (option pystr)) (i : nat) : option nat :=
  match names with
  | [] => None
  | nm :: l => if match nm with Some x => String.eqb x s | None => false end then Some i else index_of s l (S i)
  end.
Definition get_var (l : list tf) (var : varsel) (a : arr) : res arr :=
  do ns <- multi_check (variable_sizes l) a;
  let ds := dimsum ns in
  do z <- match var with
          | VIdx z => Ok z
          | VName s => match index_of s (map tf_name l) 0 with Some i => Ok (Z.of_nat i) | None => Err TypeError end
          end;
  do i <- norm_index (length ds) z;
  do j <- norm_index (length ds) (z + 1)%Z;
  Ok (aslice (nth i ds 0) (nth j ds 0) a).

(* ---- transform, transform_ddts, inverse_transform, fit_transform ----------------------------------------------- *)
(* statements of the non-joining classes *)
Definition need_dim (n : option nat) : res unit := match n with None => Err AttributeError | Some _ => Ok tt end.  (* @requires_trained *)
Definition transform_prog (t : tf) (a : arr) : res (list stmt) :=
  match t with
  | TShift ref _ => do _ <- check_shape (Some (length ref)) a; Ok [Stmt ISub (Vc ref)]               (* 277-280 *)
  | TScale c n _ => do _ <- need_dim n; do _ <- check_shape n a; Ok [Stmt IMul c]                    (* 520-552 *)
  | TSS s => ss_transform_prog s a
  | TNull n _ => do _ <- check_shape n a; Ok []                                                     (* _multi.py:246-247 *)
  | _ => Err OtherError
  end.
Definition ddts_prog (t : tf) (a : arr) : res (list stmt) :=
  match t with
  | TShift _ _ => Ok []                                                                             (* 304 *)
  | TScale c n _ => do _ <- need_dim n; do _ <- check_shape n a; Ok [Stmt IMul c]                    (* 581 *)
  | TSS s => ss_ddts_prog s a
  | TNull n _ => do _ <- check_shape n a; Ok []                                                     (* 271-272 *)
  | _ => Err OtherError
  end.
Definition inverse_prog (t : tf) (locs : option locsel) (a : arr) : res (list stmt) :=
  match t with
  | TShift ref _ =>                                                                                 (* 335-344 *)
      match locs with
      | Some l => do idx <- check_locs (Some (length ref)) l a; do q <- vtake ref idx; Ok [Stmt IAdd (Vc q)]
      | None => do _ <- check_shape (Some (length ref)) a; Ok [Stmt IAdd (Vc ref)]
      end
  | TScale c n _ =>                                                                                 (* 583-628 *)
      do _ <- need_dim n;
      match locs with
      | Some l => do idx <- check_locs n l a;
                  do c' <- match c with Sc x => Ok (Sc x) | Vc v => do w <- vtake v idx; Ok (Vc w) end;
                  Ok [Stmt IDiv c']
      | None => do _ <- check_shape n a; Ok [Stmt IDiv c]
      end
  | TSS s => ss_inverse_prog s locs a
  | TNull n _ =>                                                                                    (* _multi.py:301-305 *)
      match locs with
      | Some l => do _ <- check_locs n l a; Ok []
      | None => do _ <- check_shape n a; Ok []
      end
  | _ => Err OtherError
  end.
Definition fit_prog (t : tf) (a : arr) : res (tf * list stmt) :=
  match t with
  | TShift _ _ => do p <- transform_prog t a; Ok (t, p)                                             (* 253 *)
  | TScale c n nm =>                                                                                (* 488-491, 517-518 *)
      let t' := match c with Sc _ => TScale c (Some (alen a)) nm | Vc _ => t end in
      do p <- transform_prog t' a; Ok (t', p)
  | TSS s => do sp <- ss_fit s a; let '(s', p) := sp in Ok (TSS s', p)
  | TNull _ nm => Ok (TNull (Some (alen a)) nm, [])                                                 (* _multi.py:202-223 *)
  | _ => Err OtherError
  end.

(* transform: classes above; TransformerPipeline 117-118; TransformerMulti 622-628 *)
Fixpoint transform (t : tf) (a : arr) {struct t} : res arr :=
  match t with
  | TPipe l _ => pipe transform l a
  | TMulti l => multi_apply transform (variable_sizes l) l a
  | _ => do p <- transform_prog t a; exec p a
  end.
(* transform_ddts: TransformerPipeline 130-131; TransformerMulti 651-657 *)
Fixpoint transform_ddts (t : tf) (a : arr) {struct t} : res arr :=
  match t with
  | TPipe l _ => pipe transform_ddts l a
  | TMulti l => multi_apply transform_ddts (variable_sizes l) l a
  | _ => do p <- ddts_prog t a; exec p a
  end.
(* inverse_transform: TransformerPipeline 120-128; TransformerMulti 659-704 *)
Fixpoint inverse_transform (t : tf) (locs : option locsel) (a : arr) {struct t} : res arr :=
  match t with
  | TPipe l _ => pipe_rev (fun t => inverse_transform t locs) l a
  | TMulti l => do qs <- multi_split_locs (variable_sizes l) locs a;
                do ys <- zipM (fun t => inverse_transform t locs) l qs; aconcat ys
  | _ => do p <- inverse_prog t locs a; exec p a
  end.
(* fit_transform: TransformerPipeline 114-115; TransformerMulti 583-603.  nx is the dimension TransformerMulti writes
   into the member (tf_set_base) before calling it. *)
Fixpoint fit_from (nx : option nat) (t : tf) (a : arr) {struct t} : res (tf * arr) :=
  match t with
  | TPipe l nm => do r <- pipe_fit (fit_from None) l a; let '(l', b) := r in Ok (TPipe l' nm, b)
  | TMulti l =>
      do x <- match allsome (variable_sizes l) with
              | Some _ => Ok None
              | None => raise_if negb (alen a mod length l =? 0) with DimensionalityError;; Ok (Some (alen a / length l))
              end;
      let l0 := match x with None => l | Some nx => map (tf_set_base nx) l end in
      do qs <- multi_split (variable_sizes l0) a;
      do ys <- zipM (fit_from x) l qs;
      do b <- aconcat (map snd ys);
      Ok (TMulti (map fst ys), b)
  | _ => do tp <- fit_prog (match nx with None => t | Some nx => tf_set_base nx t end) a;
         let '(t', p) := tp in do b <- exec p a; Ok (t', b)
  end.
Definition fit_transform (t : tf) (a : arr) : res (tf * arr) := fit_from None t a.
(* fit: _base.py:108-109, _multi.py:559-560 and the overriding ones, which do the same without the arithmetic *)
Definition fit (t : tf) (a : arr) : res tf := do r <- fit_transform t a; Ok (fst r).

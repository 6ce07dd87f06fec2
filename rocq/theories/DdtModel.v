(* DdtModel.v -- time derivative estimation: ddt/_finite_difference.py and ddt/_base.py.
   Scalars are reals; a step size of zero (numpy: inf with a warning) is excluded by the theorems.  No proofs here. *)
From Coq Require Import ZArith.
From Verif Require Export OpsModel.
#[local] Open Scope nat_scope.

(* ---- Python slices ------------------------------------------------------------------------------------ *)
(* an index of l[a:b], len(l) = n: negative values count from the end, everything is clipped to [0, n] *)
Definition py_index (n : nat) (z : Z) : nat :=
  let z' := (if z <? 0 then z + Z.of_nat n else z)%Z in Nat.min n (Z.to_nat z').
(* l[a:b]; None is the missing bound *)
Definition py_slice {A} (a b : option Z) (l : list A) : list A :=
  let n := length l in
  let i := match a with None => 0 | Some z => py_index n z end in
  let j := match b with None => n | Some z => py_index n z end in
  slice i j l.

Record pslice := { p_start : option Z; p_stop : option Z }.
(* arr[..., cols] for a one- or two-dimensional array *)
Definition cols_arr (s : pslice) (x : arr) : arr :=
  match x with V v => V (py_slice (p_start s) (p_stop s) v) | M A => M (map (py_slice (p_start s) (p_stop s)) A) end.

(* ---- the schemes -------------------------------------------------------------------------------------- *)
Inductive mode := Fwd | Bwd | Ctr.

(* cols: _finite_difference.py:74-82 (and again 916-922 in mask) *)
Definition fd_cols (md : mode) (order : nat) : pslice :=
  match md with
  | Fwd => {| p_start := Some 0%Z; p_stop := Some (- Z.of_nat order)%Z |}
  | Bwd => {| p_start := Some (Z.of_nat order); p_stop := None |}
  | Ctr => let margin := Z.of_nat (order / 2) in {| p_start := Some margin; p_stop := Some (- margin)%Z |}
  end.

(* _finite_difference(states, coeffs, mode, inputs): _finite_difference.py:71-91.  np.zeros((r, k - order)) raises
   ValueError when k < order. *)
Definition finite_difference (states : mat) (coeffs : vec) (md : mode) (inputs : option arr) : res (mat * mat * option arr) :=
  let r := nrows states in
  let k := ncols states in
  let order := length coeffs - 1 in
  if k <? order then Err ValueError else
  let ddts := fold_left (fun acc jc => let '(j, c) := jc in
                 if Req_EM_T c 0 then acc else madd acc (mscale c (mcols j (k - order + j) states)))
               (combine (seq 0 (length coeffs)) coeffs) (mzeros r (k - order)) in
  let cols := fd_cols md order in
  Ok (map (py_slice (p_start cols) (p_stop cols)) states, ddts,
      match inputs with None => None | Some u => Some (cols_arr cols u) end).

(* the named schemes *)
Inductive scheme := Fwd1 | Fwd2 | Fwd3 | Fwd4 | Fwd5 | Fwd6 | Bwd1 | Bwd2 | Bwd3 | Bwd4 | Bwd5 | Bwd6
                  | Ctr2 | Ctr4 | Ctr6 | Ord2 | Ord4 | Ord6.

Definition zdiv (l : list Z) (d : R) : vec := map (fun z => IZR z / d)%R l.

(* fwd1..fwd6: 123, 155, 188, 221, 254, 288; bwd1..bwd6: 321, 353, 386, 419, 452, 487; ctr2/4/6: 520, 553, 587 *)
Definition fwd1 (Q : mat) (dt : R) (u : option arr) := finite_difference Q (zdiv [-1; 1]%Z dt) Fwd u.
Definition fwd2 (Q : mat) (dt : R) (u : option arr) := finite_difference Q (zdiv [-3; 4; -1]%Z (2 * dt)) Fwd u.
Definition fwd3 (Q : mat) (dt : R) (u : option arr) := finite_difference Q (zdiv [-11; 18; -9; 2]%Z (6 * dt)) Fwd u.
Definition fwd4 (Q : mat) (dt : R) (u : option arr) := finite_difference Q (zdiv [-25; 48; -36; 16; -3]%Z (12 * dt)) Fwd u.
Definition fwd5 (Q : mat) (dt : R) (u : option arr) :=
  finite_difference Q (zdiv [-137; 300; -300; 200; -75; 12]%Z (60 * dt)) Fwd u.
Definition fwd6 (Q : mat) (dt : R) (u : option arr) :=
  finite_difference Q (zdiv [-147; 360; -450; 400; -225; 72; -10]%Z (60 * dt)) Fwd u.
Definition bwd1 (Q : mat) (dt : R) (u : option arr) := finite_difference Q (zdiv [-1; 1]%Z dt) Bwd u.
Definition bwd2 (Q : mat) (dt : R) (u : option arr) := finite_difference Q (zdiv [1; -4; 3]%Z (2 * dt)) Bwd u.
Definition bwd3 (Q : mat) (dt : R) (u : option arr) := finite_difference Q (zdiv [-2; 9; -18; 11]%Z (6 * dt)) Bwd u.
Definition bwd4 (Q : mat) (dt : R) (u : option arr) := finite_difference Q (zdiv [3; -16; 36; -48; 25]%Z (12 * dt)) Bwd u.
Definition bwd5 (Q : mat) (dt : R) (u : option arr) :=
  finite_difference Q (zdiv [-12; 75; -200; 300; -300; 137]%Z (60 * dt)) Bwd u.
Definition bwd6 (Q : mat) (dt : R) (u : option arr) :=
  finite_difference Q (zdiv [10; -72; 225; -400; 450; -360; 147]%Z (60 * dt)) Bwd u.
Definition ctr2 (Q : mat) (dt : R) (u : option arr) := finite_difference Q (zdiv [-1; 0; 1]%Z (2 * dt)) Ctr u.
Definition ctr4 (Q : mat) (dt : R) (u : option arr) := finite_difference Q (zdiv [1; -8; 0; 8; -1]%Z (12 * dt)) Ctr u.
Definition ctr6 (Q : mat) (dt : R) (u : option arr) :=
  finite_difference Q (zdiv [-1; 9; -45; 0; 45; -9; 1]%Z (60 * dt)) Ctr u.

(* ---- ddt_uniform --------------------------------------------------------------------------------------- *)
(* states[:, :w] @ c and states[:, -w:] @ c (ValueError when the widths differ) *)
Definition front (w : nat) (Q : mat) (c : vec) : res vec := matvec_r (map (py_slice None (Some (Z.of_nat w))) Q) c.
Definition back (w : nat) (Q : mat) (c : vec) : res vec := matvec_r (map (py_slice (Some (- Z.of_nat w)%Z) None) Q) c.
(* -c[::-1] *)
Definition negrev (c : vec) : vec := map Ropp (rev c).
(* the columns written one after the other: first ones, interior block, last ones *)
Definition columns (l : list vec) (r : nat) : mat := map (fun i => map (fun c => vget c i) l) (seq 0 r).
Definition assemble (r : nat) (fronts : list vec) (mid : mat) (backs : list vec) : mat :=
  hcat (hcat (columns fronts r) mid) (columns backs r).

(* the argument dt: a number or something else *)
Inductive dtarg := DtNum (dt : R) | DtOther.

(* ddt_uniform(states, dt, order): _finite_difference.py:1045-1095.  Every column of np.empty_like(states) is written
   exactly once (the three slices cover the columns because k >= order + 1 here), so the result is assembled from
   them.  An integer dtype of states (truncation) is not modelled. *)
Definition ddt_uniform (states : arr) (dta : dtarg) (order : nat) : res mat :=
  match states with
  | V _ => Err DimensionalityError
  | M Q =>
    match dta with
    | DtOther => Err TypeError
    | DtNum dt =>
      let r := nrows Q in
      match order with
      | 2 =>
          let c0 := zdiv [-3; 4; -1]%Z (2 * dt) in
          do d0 <- front 3 Q c0;
          do m <- ctr2 Q dt None;
          do e0 <- back 3 Q (negrev c0);
          Ok (assemble r [d0] (snd (fst m)) [e0])
      | 4 =>
          let c0 := zdiv [-25; 48; -36; 16; -3]%Z (12 * dt) in
          let c1 := zdiv [-3; -10; 18; -6; 1]%Z (12 * dt) in
          do d0 <- front 5 Q c0;
          do d1 <- front 5 Q c1;
          do m <- ctr4 Q dt None;
          do e1 <- back 5 Q (negrev c1);
          do e0 <- back 5 Q (negrev c0);
          Ok (assemble r [d0; d1] (snd (fst m)) [e1; e0])
      | 6 =>
          let c0 := zdiv [-147; 360; -450; 400; -225; 72; -10]%Z (60 * dt) in
          let c1 := zdiv [-10; -77; 150; -100; 50; -15; 2]%Z (60 * dt) in
          let c2 := zdiv [2; -24; -35; 80; -30; 8; -1]%Z (60 * dt) in
          do d0 <- front 7 Q c0;
          do d1 <- front 7 Q c1;
          do d2 <- front 7 Q c2;
          do m <- ctr6 Q dt None;
          do e2 <- back 7 Q (negrev c2);
          do e1 <- back 7 Q (negrev c1);
          do e0 <- back 7 Q (negrev c0);
          Ok (assemble r [d0; d1; d2] (snd (fst m)) [e2; e1; e0])
      | _ => Err NotImplementedError
      end
    end
  end.

(* ord2, ord4, ord6: _finite_difference.py:592-597, 639, 694, 763 *)
Definition mixed (Q : mat) (dt : R) (order : nat) (u : option arr) : res (mat * mat * option arr) :=
  do D <- ddt_uniform (M Q) (DtNum dt) order; Ok (Q, D, u).

(* the table of schemes: 800-821 *)
Definition run_scheme (s : scheme) : mat -> R -> option arr -> res (mat * mat * option arr) :=
  match s with
  | Fwd1 => fwd1 | Fwd2 => fwd2 | Fwd3 => fwd3 | Fwd4 => fwd4 | Fwd5 => fwd5 | Fwd6 => fwd6
  | Bwd1 => bwd1 | Bwd2 => bwd2 | Bwd3 => bwd3 | Bwd4 => bwd4 | Bwd5 => bwd5 | Bwd6 => bwd6
  | Ctr2 => ctr2 | Ctr4 => ctr4 | Ctr6 => ctr6
  | Ord2 => fun Q dt u => mixed Q dt 2 u | Ord4 => fun Q dt u => mixed Q dt 4 u | Ord6 => fun Q dt u => mixed Q dt 6 u
  end.
(* mode and order read off the function's name: 912-913 *)
Definition scheme_mode (s : scheme) : option mode :=
  match s with
  | Fwd1 | Fwd2 | Fwd3 | Fwd4 | Fwd5 | Fwd6 => Some Fwd
  | Bwd1 | Bwd2 | Bwd3 | Bwd4 | Bwd5 | Bwd6 => Some Bwd
  | Ctr2 | Ctr4 | Ctr6 => Some Ctr
  | Ord2 | Ord4 | Ord6 => None
  end.
Definition scheme_order (s : scheme) : nat :=
  match s with
  | Fwd1 | Bwd1 => 1 | Fwd2 | Bwd2 | Ctr2 | Ord2 => 2 | Fwd3 | Bwd3 => 3 | Fwd4 | Bwd4 | Ctr4 | Ord4 => 4
  | Fwd5 | Bwd5 => 5 | Fwd6 | Bwd6 | Ctr6 | Ord6 => 6
  end.

(* ---- the estimator classes ------------------------------------------------------------------------------- *)
(* np.diff *)
Definition diff (t : vec) : vec := map2 Rminus (tl t) t.
(* np.allclose(diffs, diffs[0]) *)
Definition vallclose (v : vec) (x : R) : bool := forallb (fun a => rleb (Rabs (a - x)) (/ 10 ^ 8 + / 10 ^ 5 * Rabs x)%R) v.

(* UniformFiniteDifferencer.__init__: _finite_difference.py:823-835, _base.py:77-81.  The scheme argument is an
   optional scheme: None is a name that is not in the table. *)
Record ufd := { u_time : vec; u_scheme : scheme }.
Definition ufd_init (t : arr) (s : option scheme) : res ufd :=
  match t with
  | M _ => Err ValueError
  | V t =>
      match diff t with
      | [] => Err IndexError                                    (* diffs[0] *)
      | d0 :: _ => if negb (vallclose (diff t) d0) then Err ValueError
                   else match s with None => Err ValueError | Some s => Ok {| u_time := t; u_scheme := s |} end
      end
  end.
(* dt: 839-842 *)
Definition ufd_dt (e : ufd) : R := (vget (u_time e) 1 - vget (u_time e) 0)%R.

(* inputs.reshape((1, -1)) if one-dimensional; _base.py:109-115 *)
Definition check_inputs (Q : mat) (u : option arr) : res (option mat) :=
  match u with
  | None => Ok None
  | Some u => let U := match u with V v => [v] | M A => A end in
              if negb (ncols U =? ncols Q) then Err DimensionalityError else Ok (Some U)
  end.
(* estimate: 883-884 (_check_dimensions with check_against_time=False) *)
Definition ufd_estimate (e : ufd) (states : arr) (inputs : option arr) : res (mat * mat * option arr) :=
  match states with
  | V _ => Err DimensionalityError
  | M Q => do U <- check_inputs Q inputs; run_scheme (u_scheme e) Q (ufd_dt e) (match U with None => None | Some U => Some (M U) end)
  end.
(* mask: 912-925 *)
Definition ufd_mask (e : ufd) (x : arr) : arr :=
  match scheme_mode (u_scheme e) with
  | None => x
  | Some md => cols_arr (fd_cols md (scheme_order (u_scheme e))) x
  end.

(* ---- np.gradient(f, t, edge_order=2, axis=-1) --------------------------------------------------------------- *)
(* numpy/lib/function_base.py (not in /repo): second-order differences on a nonuniform grid.  For equal spacings
   numpy uses the uniform formulas, which agree over the reals. *)
Definition grad_first (f : vec) (t : vec) : R :=
  let d1 := (vget t 1 - vget t 0)%R in let d2 := (vget t 2 - vget t 1)%R in
  (- (2 * d1 + d2) / (d1 * (d1 + d2)) * vget f 0 + (d1 + d2) / (d1 * d2) * vget f 1 + - d1 / (d2 * (d1 + d2)) * vget f 2)%R.
Definition grad_mid (f : vec) (t : vec) (i : nat) : R :=
  let d1 := (vget t i - vget t (i - 1))%R in let d2 := (vget t (i + 1) - vget t i)%R in
  (- d2 / (d1 * (d1 + d2)) * vget f (i - 1) + (d2 - d1) / (d1 * d2) * vget f i + d1 / (d2 * (d1 + d2)) * vget f (i + 1))%R.
Definition grad_last (f : vec) (t : vec) : R :=
  let n := length t in
  let d1 := (vget t (n - 2) - vget t (n - 3))%R in let d2 := (vget t (n - 1) - vget t (n - 2))%R in
  (d2 / (d1 * (d1 + d2)) * vget f (n - 3) + - (d2 + d1) / (d1 * d2) * vget f (n - 2) + (2 * d2 + d1) / (d2 * (d1 + d2)) * vget f (n - 1))%R.
Definition gradient (f t : vec) : vec :=
  map (fun i => if i =? 0 then grad_first f t else if i =? length t - 1 then grad_last f t else grad_mid f t i) (seq 0 (length t)).
(* ValueError unless there are at least edge_order + 1 = 3 samples *)
Definition np_gradient (Q : mat) (t : vec) : res mat :=
  if length t <? 3 then Err ValueError else Ok (map (fun f => gradient f t) Q).

(* ddt_nonuniform: 1114-1122 *)
Definition ddt_nonuniform (states t : arr) : res mat :=
  match states with
  | V _ => Err DimensionalityError
  | M Q => match t with
           | M _ => Err DimensionalityError
           | V t => if negb (ncols Q =? length t) then Err DimensionalityError else np_gradient Q t
           end
  end.
(* NonuniformFiniteDifferencer: 943-1022 (the warning is not modelled) *)
Definition nfd_init (t : arr) : res vec :=
  match t with M _ => Err ValueError | V t => match diff t with [] => Err IndexError | _ => Ok t end end.
Definition nfd_estimate (t : vec) (states : arr) (inputs : option arr) : res (mat * mat * option arr) :=
  match states with
  | V _ => Err DimensionalityError
  | M Q => if negb (ncols Q =? length t) then Err DimensionalityError
           else do U <- check_inputs Q inputs; do D <- np_gradient Q t;
                Ok (Q, D, match U with None => None | Some U => Some (M U) end)
  end.
Definition nfd_mask (t : vec) (x : arr) : arr := x.

(* ---- ddt(states, *args, **kwargs): 1149-1186 ------------------------------------------------------------------ *)
(* an argument value: a float, an int, an array, something else *)
Inductive pyarg := AFloat (x : R) | AInt (n : nat) | AArray (a : arr) | AOther.
Inductive kwname := Kdt | Kt | Korder | Kother.
(* np.isscalar: numbers are scalars *)
Definition as_dt (a : pyarg) : dtarg := match a with AFloat x => DtNum x | AInt n => DtNum (INR n) | _ => DtOther end.
(* order == 2 etc. (a float or array order other than these is NotImplementedError; 0 stands for "none of them") *)
Definition as_order (a : pyarg) : nat :=
  match a with
  | AInt n => n
  | AFloat x => if Req_EM_T x 2 then 2 else if Req_EM_T x 4 then 4 else if Req_EM_T x 6 then 6 else 0
  | _ => 0
  end.
(* func(states, *args, **kwargs) for ddt_uniform(states, dt, order=2) and ddt_nonuniform(states, t): Python's binding
   of arguments; a missing, repeated or unknown argument is a TypeError.  An array given as `order` (ValueError) is not
   modelled. *)
Definition kwget (k : kwname) (kwargs : list (kwname * pyarg)) : option pyarg :=
  match find (fun p => match fst p, k with Kdt, Kdt | Kt, Kt | Korder, Korder => true | _, _ => false end) kwargs with
  | Some p => Some (snd p) | None => None end.
Definition call_uniform (states : arr) (args : list pyarg) (kwargs : list (kwname * pyarg)) : res mat :=
  if existsb (fun p => match fst p with Kt | Kother => true | _ => false end) kwargs then Err TypeError else
  match args, kwget Kdt kwargs, kwget Korder kwargs with
  | [dt; order], None, None => ddt_uniform states (as_dt dt) (as_order order)
  | [dt], None, None => ddt_uniform states (as_dt dt) 2
  | [dt], None, Some order => ddt_uniform states (as_dt dt) (as_order order)
  | [], Some dt, None => ddt_uniform states (as_dt dt) 2
  | [], Some dt, Some order => ddt_uniform states (as_dt dt) (as_order order)
  | _, _, _ => Err TypeError
  end.
Definition as_time (a : pyarg) : res arr := match a with AArray t => Ok t | _ => Err AttributeError end.   (* t.ndim *)
Definition call_nonuniform (states : arr) (a : pyarg) : res mat :=
  match states with
  | V _ => Err DimensionalityError
  | M _ => do t <- as_time a; ddt_nonuniform states t
  end.
Definition ddt (states : arr) (args : list pyarg) (kwargs : list (kwname * pyarg)) : res mat :=
  match length args + length kwargs with
  | 0 => Err TypeError
  | 1 =>
      match kwargs, args with
      | [(Kdt, _)], _ => call_uniform states args kwargs
      | [(Kt, t)], _ => call_nonuniform states t
      | [(_, _)], _ => Err TypeError
      | _, [AFloat _] => call_uniform states args kwargs
      | _, [AArray t] => call_nonuniform states (AArray t)
      | _, _ => Err TypeError
      end
  | 2 => call_uniform states args kwargs
  | _ => Err TypeError
  end.

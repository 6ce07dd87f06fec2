(* ParamModel.v -- parametric operators: operators/_affine.py (_AffineOperator), operators/_interpolate.py
   (_InterpOperator) and their base ParametricOpInfOperator (operators/_base.py:1210-1354).
   Entries are kept as operators of OpsModel.v (all of the same class).  No proofs here. *)
From Verif Require Export EntriesModel.
#[local] Open Scope nat_scope.

(* a parameter value: a scalar or a one-dimensional array *)
Inductive pval : Type := PS (x : R) | PV (v : vec).
(* np.atleast_1d(parameter).shape[0] *)
Definition plen (p : pval) : nat := match p with PS _ => 1 | PV v => length v end.
(* ndim of one value *)
Definition pndim (p : pval) : nat := match p with PS _ => 0 | PV _ => 1 end.

(* an operator with unspecified entries, standing for the class (datablock and operator_dimension are static) *)
Definition proto (c : cls) : op :=
  match c with CConst => OConst [] | CLin => OLin [] | CPoly d => OPoly d [] | CInp => OInp [] | CStIn => OStIn [] end.
(* self._OperatorClass(A) for a two-dimensional A *)
Definition construct (c : cls) (E : mat) : res op := rebuild_same (proto c) E.

(* ---- affine operators ------------------------------------------------------------------------------ *)
(* the value of coeffs(parameter): a number or an array/list *)
Inductive coef : Type := TS (x : R) | TV (v : vec).
(* the argument `coeffs` of the constructor *)
Inductive coeffarg : Type :=
| CFun (f : pval -> coef)            (* a callable *)
| CIter (fs : list (pval -> R))      (* an iterable of callables *)
| CInt (p : nat)                     (* an int *)
| CBad.                              (* neither *)

Record aff := { a_cls : cls; a_theta : pval -> coef; a_nterms : nat; a_pdim : option nat; a_entries : option (list op) }.

(* _identity: _affine.py:33-35 *)
Definition identity (p : pval) : coef := match p with PS x => TS x | PV v => TV v end.

(* __init__ without entries: _affine.py:116-153.  nterms given as a positive int (other values: TypeError) *)
Definition aff_init (c : cls) (coeffs : coeffarg) (nterms : option nat) : res aff :=
  if match nterms with Some 0 => true | _ => false end then Err TypeError else
  let mk f n p := Ok {| a_cls := c; a_theta := f; a_nterms := n; a_pdim := p; a_entries := None |} in
  match coeffs with
  | CInt 0 | CBad => Err TypeError
  | CInt (S p) => mk identity (S p) (Some (S p))
  | CIter fs => mk (fun mu => TV (map (fun f => f mu) fs)) (length fs) None
  | CFun f => match nterms with None => Err ValueError | Some n => mk f n None end
  end.

(* np.shape of the entries of a list: _check_shape_consistency, operators/_base.py:1244-1248 *)
Definition same_shapes (l : list mat) : bool :=
  match l with [] => true | A :: l' => forallb (fun B => (nrows A =? nrows B) && (ncols A =? ncols B)) l' end.

(* np.split(entries, n, axis=-1): ValueError unless the width is divisible *)
Definition np_split (n : nat) (B : mat) : res (list mat) :=
  if n =? 0 then Err ZeroDivisionError
  else if negb (ncols B mod n =? 0) then Err ValueError
  else let w := ncols B / n in Ok (map (fun k => mcols (k * w) (k * w + w) B) (seq 0 n)).

(* set_entries with a list of arrays: _affine.py:217-228.  On failure the object is unchanged. *)
Definition aff_terms (c : cls) (nterms : nat) (Es : list mat) : res (list op) :=
  if negb (same_shapes Es) then Err ValueError
  else if negb (length Es =? nterms) then Err ValueError
  else mapM (construct c) Es.
Definition aff_set (a : aff) (Es : list mat) : res aff :=
  do ops <- aff_terms (a_cls a) (a_nterms a) Es;
  Ok {| a_cls := a_cls a; a_theta := a_theta a; a_nterms := a_nterms a; a_pdim := a_pdim a; a_entries := Some ops |}.
(* set_entries(B, fromblock=True): _affine.py:208-216 *)
Definition aff_set_block (a : aff) (B : mat) : res aff := do Es <- np_split (a_nterms a) B; aff_set a Es.

(* theta_mus as a list: _affine.py:253-255, 411-413 (zip and iteration over a bare number raise TypeError) *)
Definition thetas (a : aff) (mu : pval) : res vec :=
  match a_theta a mu with
  | TS x => if a_nterms a =? 1 then Ok [x] else Err TypeError
  | TV v => Ok v
  end.

(* sum([tm * A for tm, A in zip(theta_mus, entries)]); sum([]) is the number 0 *)
Definition lincomb (th : vec) (Es : list mat) : mat :=
  match map2 mscale th Es with [] => [[0%R]] | A :: l => fold_left madd l A end.

(* evaluate(parameter): _affine.py:250-257; returns the object (parameter_dimension may be set) and the operator *)
Definition aff_evaluate (a : aff) (mu : pval) : aff * res op :=
  match a_entries a with
  | None => (a, Err AttributeError)                                   (* @requires("entries") *)
  | Some ops =>
      let p := match a_pdim a with None => plen mu | Some p => p end in
      let a' := {| a_cls := a_cls a; a_theta := a_theta a; a_nterms := a_nterms a; a_pdim := Some p;
                   a_entries := a_entries a |} in
      (a', if negb (plen mu =? p) then Err ValueError
           else do th <- thetas a mu; construct (a_cls a) (lincomb th (map entries2 ops)))
  end.

(* galerkin: _affine.py:309-317 (the new object has no parameter_dimension) *)
Definition aff_galerkin (solve : mat -> mat -> res mat) (junk : nat -> vec) (a : aff) (Vr : mat) (Wr : option mat) : res aff :=
  match a_entries a with
  | None => Err AttributeError
  | Some ops =>
      do gs <- mapM (fun o => galerkin solve junk o Vr Wr) ops;
      let a0 := {| a_cls := a_cls a; a_theta := a_theta a; a_nterms := a_nterms a; a_pdim := None; a_entries := None |} in
      aff_set a0 (map entries2 gs)
  end.

(* operator_dimension: _affine.py:342 *)
Definition aff_opdim (a : aff) (r m : nat) : nat := a_nterms a * opdim (proto (a_cls a)) r m.

Definition has_inputs (c : cls) : bool := match c with CInp | CStIn => true | _ => false end.

(* datablock(parameters, states, inputs): _affine.py:406-415.  Classes without inputs get [None]*len(parameters).
   np.hstack([]) raises ValueError. *)
Fixpoint aff_columns (a : aff) (mus : list pval) (Qs Us : list mat) : res (list mat) :=
  match mus, Qs, Us with
  | mu :: mus', Q :: Qs', U :: Us' =>
      do Di <- datablock (proto (a_cls a)) (M Q) (M U);
      do th <- thetas a mu;
      do rest <- aff_columns a mus' Qs' Us';
      Ok (vstack (map (fun t => mscale t Di) th) :: rest)
  | _, _, _ => Ok []
  end.
Definition aff_datablock (a : aff) (mus : list pval) (Qs Us : list mat) : res mat :=
  let Us := if has_inputs (a_cls a) then Us else map (fun _ => []) mus in
  do cols <- aff_columns a mus Qs Us;
  match cols with [] => Err ValueError | _ => Ok (hstack cols) end.

(* ---- interpolated operators -------------------------------------------------------------------------- *)
(* An interpolator class: built from parameters and arrays, then called.  CubicSpline and LinearNDInterpolator and
   user classes are parameters of the model. *)
Definition interpolator := pval -> res mat.
Definition iclass := list pval -> list mat -> res interpolator.

Record itp := { i_cls : cls; i_pdim : option nat; i_params : option (list pval); i_entries : option (list op);
                i_interp : option interpolator; i_iclass : option iclass }.

(* np.argsort of a one-dimensional array (insertion sort on the indices) *)
Fixpoint ins (key : nat -> R) (i : nat) (l : list nat) : list nat :=
  match l with
  | [] => [i]
  | j :: l' => if Rle_dec (key i) (key j) then i :: l else j :: ins key i l'
  end.
Definition argsort (v : vec) : list nat := fold_right (ins (vget v)) [] (seq 0 (length v)).

Definition unscalar (p : pval) : R := match p with PS x => x | PV v => nth 0 v 0%R end.

(* set_training_parameters: _interpolate.py:171-188; an (s, 1) array is flattened.  Empty lists are not modelled
   (iterable[0] raises IndexError). *)
Definition i_set_params (t : itp) (ps : list pval) : res itp :=
  match i_interp t with
  | Some _ => Err AttributeError
  | None =>
      match ps with
      | [] => Err IndexError
      | p0 :: _ =>
          if negb (forallb (fun p => (pndim p =? pndim p0) && (plen p =? plen p0)) ps) then Err ValueError
          else let ps := if plen p0 =? 1 then map (fun p => PS (unscalar p)) ps else ps in
               Ok {| i_cls := i_cls t; i_pdim := Some (plen p0); i_params := Some ps; i_entries := i_entries t; i_interp := i_interp t;
                     i_iclass := i_iclass t |}
      end
  end.

Section Interp.
  (* scipy.interpolate.CubicSpline and LinearNDInterpolator *)
  Variables (cubic linearnd : iclass).

  Definition is_scalar (p : pval) : bool := match p with PS _ => true | PV _ => false end.

  (* set_interpolator: _interpolate.py:262-279; returns the object even when the interpolator class raises *)
  Definition i_set_interp (t : itp) (ic : option iclass) : itp * res unit :=
    match i_entries t, i_params t with
    | Some ops, Some ps =>
        let es := map entries2 ops in
        let '(C, ps', es') :=
          match ic with
          | Some C => (C, ps, es)
          | None => if forallb is_scalar ps
                    then let ix := argsort (map unscalar ps) in (cubic, take_at (PS 0) ps ix, take_at [] es ix)
                    else (linearnd, ps, es)
          end in
        match C ps' es' with
        | Ok f => ({| i_cls := i_cls t; i_pdim := i_pdim t; i_params := i_params t; i_entries := i_entries t; i_interp := Some f;
                      i_iclass := Some C |}, Ok tt)
        | Err e => (t, Err e)
        end
    | _, _ => ({| i_cls := i_cls t; i_pdim := i_pdim t; i_params := i_params t; i_entries := i_entries t; i_interp := i_interp t;
                  i_iclass := ic |}, Ok tt)
    end.

  (* set_entries(list): _interpolate.py:212-239; the entries are stored before the interpolator is built *)
  Definition i_set (t : itp) (Es : list mat) : itp * res unit :=
    match i_params t with
    | None => (t, Err AttributeError)
    | Some ps =>
        if negb (same_shapes Es) then (t, Err ValueError)
        else if negb (length Es =? length ps) then (t, Err ValueError)
        else match mapM (construct (i_cls t)) Es with
             | Err e => (t, Err e)
             | Ok ops => i_set_interp {| i_cls := i_cls t; i_pdim := i_pdim t; i_params := i_params t; i_entries := Some ops;
                                         i_interp := i_interp t; i_iclass := i_iclass t |} (i_iclass t)
             end
    end.
  Definition i_set_block (t : itp) (B : mat) : itp * res unit :=
    match i_params t with
    | None => (t, Err AttributeError)
    | Some ps => match np_split (length ps) B with Err e => (t, Err e) | Ok Es => i_set t Es end
    end.

  (* _clear: _interpolate.py:144-147, operators/_base.py:1221-1224 (parameter_dimension is forgotten, the training
     parameters are not) *)
  Definition i_clear (t : itp) : itp :=
    {| i_cls := i_cls t; i_pdim := None; i_params := i_params t; i_entries := None; i_interp := None; i_iclass := i_iclass t |}.

  (* __init__: _interpolate.py:98-107 *)
  Definition i_new (c : cls) (ic : option iclass) : itp :=
    {| i_cls := c; i_pdim := None; i_params := None; i_entries := None; i_interp := None; i_iclass := ic |}.
  Definition i_init (c : cls) (ps : list pval) (Es : list mat) (ic : option iclass) : res itp :=
    do t <- i_set_params (i_new c ic) ps;
    match i_set t Es with (t', Ok _) => Ok t' | (_, Err e) => Err e end.

  (* evaluate: _interpolate.py:348-354, operators/_base.py:956-961 *)
  Definition i_evaluate (t : itp) (mu : pval) : res op :=
    match i_entries t, i_interp t with
    | Some _, Some f =>
        match i_pdim t with
        | None => Err RuntimeError
        | Some p => if negb (plen mu =? p) then Err ValueError
                    else do E <- f (if p =? 1 then PS (unscalar mu) else mu); construct (i_cls t) E
        end
    | Some _, None => Err TypeError              (* the interpolator could not be built: None(parameter) *)
    | None, _ => Err AttributeError
    end.

  (* copy: _interpolate.py:471-478 *)
  Definition i_copy (t : itp) : res itp :=
    match i_params t with
    | None => match i_entries t with None => Ok (i_new (i_cls t) (i_iclass t)) | Some _ => Err AttributeError end
    | Some ps =>
        do t1 <- i_set_params (i_new (i_cls t) (i_iclass t)) ps;
        match i_entries t with
        | None => Ok t1
        | Some ops => match i_set t1 (map entries2 ops) with (t', Ok _) => Ok t' | (_, Err e) => Err e end
        end
    end.
End Interp.

(* scipy.linalg.block_diag of two-dimensional blocks *)
Definition blockdiag2 (A B : mat) : mat :=
  hcat A (mzeros (nrows A) (ncols B)) ++ hcat (mzeros (nrows B) (ncols A)) B.
Definition block_diag (l : list mat) : mat :=
  match l with [] => [] | A :: l' => fold_left blockdiag2 l' A end.

(* datablock(parameters, states, inputs): _interpolate.py:446-453 (zip over states and inputs) *)
Fixpoint i_blocks (c : cls) (Qs Us : list mat) : res (list mat) :=
  match Qs, Us with
  | Q :: Qs', U :: Us' => do Di <- datablock (proto c) (M Q) (M U); do rest <- i_blocks c Qs' Us'; Ok (Di :: rest)
  | _, _ => Ok []
  end.
Definition i_datablock (c : cls) (mus : list pval) (Qs Us : list mat) : res mat :=
  let Us := if has_inputs c then Us else map (fun _ => []) mus in
  do Ds <- i_blocks c Qs Us; Ok (block_diag Ds).

(* operator_dimension(s, r, m): _interpolate.py:468 *)
Definition i_opdim (c : cls) (s r m : nat) : nat := s * opdim (proto c) r m.

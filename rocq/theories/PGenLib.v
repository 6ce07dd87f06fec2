(* PGenLib.v -- the two kinds of parametric operators of the library, over a nonparametric class c that is anything: one of the
   library's or a user's (operators/_affine.py, operators/_interpolate.py).  No proofs here. *)
From Coq Require Import ZArith String.
From Verif Require Export PGenModel.
#[local] Open Scope nat_scope.
#[local] Open Scope list_scope.

(* np.split(entries, n, axis=-1), then _OperatorClass(A).entries for each: operators/_affine.py:208-228, _interpolate.py:225-243 *)
Definition split_set (c : ocls) (n : nat) (E : mat) : res (list mat) := do Es <- np_split n E; mapM (oc_set c) Es.
(* inputs = [None] * len(parameters) for classes without inputs: _affine.py:404-405, _interpolate.py:446-447 *)
Definition inputs_for (c : ocls) (mus : list pval) (Us : list (option arr)) : list (option arr) :=
  if oc_inputs c then Us else map (fun _ => None) mus.

(* ---- affine: A(mu) = sum_l theta_l(mu) A_l, n terms -------------------------------------------------------------------------- *)
(* datablock: _affine.py:406-415 (zip stops at the end of the shortest list) *)
Fixpoint aff_cols (c : ocls) (theta : pval -> res vec) (mus : list pval) (Qs : list mat) (Us : list (option arr)) : res (list mat) :=
  match mus, Qs, Us with
  | mu :: mus', Q :: Qs', U :: Us' =>
      do D <- oc_block c Q U; do th <- theta mu; do t <- aff_cols c theta mus' Qs' Us';
      Ok (vstack (map (fun t => mscale t D) th) :: t)
  | _, _, _ => Ok []
  end.
(* theta is coeffs, a number turned into a list of one (_affine.py:253-255): it may raise *)
Definition aff_cls (c : ocls) (n : nat) (theta : pval -> res vec) : pocls :=
  {| pc_type := oc_type c;
     pc_itp := false;
     pc_inputs := oc_inputs c;
     pc_dim := fun _ r m => do w <- oc_dim c r m; Ok (n * w);                                      (* _affine.py:342 *)
     pc_block := fun mus Qs Us => do cols <- aff_cols c theta mus Qs (inputs_for c mus Us); hstack_r cols;
     pc_set := fun _ E => do Es <- split_set c n E; Ok (hstack Es);
     pc_indim := fun _ E => match np_split n E with Ok (A :: _) => oc_indim c A | _ => 0 end;         (* _affine.py:712-714, 758-763 *)
     (* _affine.py:253-257 (lines 250-252: y_fits) *)
     pc_eval := fun _ E mu => do Es <- np_split n E; do th <- theta mu; do A <- oc_set c (lincomb th Es); Ok (c, A) |}.
(* coeffs given as an int p: theta(mu) = mu.  (Values of another length are rejected by y_fits already.) *)
Definition theta_id (p : nat) (mu : pval) : res vec :=
  if plen mu =? p then Ok (match mu with PS x => [x] | PV v => v end) else Err ValueError.

(* ---- interpolated: A(mu) interpolates A_i at mu_i ------------------------------------------------------------------------------- *)
(* arrays of length one become numbers: _interpolate.py:186-188, 349-350 *)
Definition norm (mu : pval) : pval := if plen mu =? 1 then PS (unscalar mu) else mu.
(* the default: CubicSpline on sorted numbers, LinearNDInterpolator otherwise: _interpolate.py:266-276 *)
Definition default_interp (cubic linearnd : iclass) : iclass := fun ps es =>
  if forallb is_scalar ps then let ix := argsort (map unscalar ps) in cubic (take_at (PS 0%R) ps ix) (take_at [] es ix)
  else linearnd ps es.
(* C: the interpolator class, or the default *)
Definition itp_cls (c : ocls) (C : iclass) : pocls :=
  {| pc_type := oc_type c;
     pc_itp := true;
     pc_inputs := oc_inputs c;
     pc_dim := fun s r m => do w <- oc_dim c r m; Ok (s * w);                                      (* _interpolate.py:468 *)
     pc_block := fun mus Qs Us => do Ds <- non_blocks c Qs (inputs_for c mus Us); Ok (block_diag Ds);  (* _interpolate.py:446-453 *)
     (* _interpolate.py:212-244, 262-279 *)
     pc_set := fun t E => match t with
                          | None => Err AttributeError
                          | Some mus => do Es <- split_set c (length mus) E; do f <- C (map norm mus) Es; Ok (hstack Es)
                          end;
     (* _interpolate.py:827-829, 880-885 *)
     pc_indim := fun t E => match t with
                            | None => 0
                            | Some mus => match np_split (length mus) E with Ok (A :: _) => oc_indim c A | _ => 0 end
                            end;
     (* _interpolate.py:349-354 (line 348: y_fits) *)
     pc_eval := fun t E mu => match t with
                              | None => Err AttributeError
                              | Some mus => do Es <- np_split (length mus) E; do f <- C (map norm mus) Es;
                                            do A <- f (norm mu); do A <- oc_set c A; Ok (c, A)
                              end |}.

(* SpecDdtItp.v -- vocabulary for properties C62 (derivatives by interpolation) and C63 (verification of derivative estimators). *)
From Coq Require Import ZArith Reals.
From Verif Require Export SpecDdt DdtInterp.
#[local] Open Scope nat_scope.

(* the interpolant of data v at times t takes the values v at t *)
Definition meets_data (f : rule) : Prop := forall t v g j, length v = length t -> f t v = Ok g -> j < length t -> g 0 (vget t j) = vget v j.
(* derivatives are derivatives of the interpolant *)
Definition differentiates (f : rule) (ts : vec) : Prop := forall t v g j, length v = length t -> f t v = Ok g -> j < length ts -> derivable_pt_lim (g 0) (vget ts j) (g 1 (vget ts j)).
(* the rows of A are the interpolants gs of the rows of Q, or their derivatives (nu = 1), at the times ts *)
Definition interpolated (f : rule) (t : vec) (r : nat) (Q : mat) (gs : nat -> nat -> R -> R) : Prop := forall i, i < r -> f t (nth i Q []) = Ok (gs i).
Definition evaluated (nu r : nat) (gs : nat -> nat -> R -> R) (ts : vec) (A : mat) : Prop :=
  is_mat r (length ts) A /\ forall i j, i < r -> j < length ts -> mget A i j = gs i nu (vget ts j).
(* the times of the estimates *)
Definition out_times (e : ide) : vec := match id_new e with None => id_time e | Some t2 => t2 end.
(* ... in terms of the arguments of the constructor *)
Definition times_out (t : vec) (t2 : newtime) : vec := match t2 with NArr (V ts) => ts | _ => t end.
(* data of the right length are never refused *)
Definition accepts (f : rule) : Prop := forall t v, length v = length t -> exists g, f t v = Ok g.

(* ---- C63 ---- *)
(* the columns of Q1 are the columns s, s + 1, ... of Q *)
Definition placed (r s : nat) (Q Q1 : mat) : Prop :=
  is_mat r (ncols Q1) Q1 /\ s + ncols Q1 <= ncols Q /\ 0 < ncols Q1 /\ forall i j, i < r -> j < ncols Q1 -> mget Q1 i j = mget Q i (s + j).
(* x is the relative error of row i of D1, as an estimate of the derivative f' at the times s, s + 1, ... *)
Definition true_error (s w : nat) (t : vec) (f' : R -> R) (D1 : mat) (i : nat) (x : R) : Prop :=
  let den := bsum w (fun j => Rsqr (f' (vget t (s + j)))) in
  (den <> 0)%R /\ x = (sqrt (bsum w (fun j => Rsqr (mget D1 i j - f' (vget t (s + j))))) / sqrt den)%R.
(* replacing the time domain *)
Definition time_laws {St} (time : St -> vec) (set_time : vec -> St -> St) : Prop :=
  (forall t e, time (set_time t e) = t) /\ (forall e, set_time (time e) e = e) /\ forall t t' e, set_time t (set_time t' e) = set_time t e.
(* o is the relative error that is reported for row i; None: it has no value, because the derivatives it is relative to are all zero *)
Definition compared (s w : nat) (t : vec) (f' : R -> R) (D1 : mat) (i : nat) (o : option R) : Prop :=
  match o with Some x => true_error s w t f' D1 i x | None => bsum w (fun j => Rsqr (f' (vget t (s + j)))) = 0%R end.
(* errs are the relative errors of the derivatives that the estimator gives for the test functions at 1, 1 + dt, 1 + 2 dt, ..., as
   estimates of the derivatives at the first of these times *)
Definition reports {St} (estimate : St -> arr -> option arr -> res (mat * mat * option arr)) (set_time : vec -> St -> St) (npts : nat) (e : St) (dt : R) (errs : list (option R)) : Prop :=
  exists Q1 D1 u, let t := vtimes npts dt in
    estimate (set_time t e) (M (vstates t)) None = Ok (Q1, D1, u) /\ length errs = length vtests /\
    (ncols Q1 <= npts -> is_mat (length vtests) (ncols Q1) D1 -> forall i f, nth_error vtests i = Some f -> compared 0 (ncols Q1) t (snd f) D1 i (nth i errs None)).
(* the shapes that verify asks for *)
Definition good_shapes {St} (estimate : St -> arr -> option arr -> res (mat * mat * option arr)) (Q U : mat) (e : St) : Prop :=
  exists Q1 D1 u Q2 D2 U2, estimate e (M Q) None = Ok (Q1, D1, u) /\ nrows Q1 = nrows Q /\ nrows D1 = nrows Q /\ ncols Q1 = ncols D1 /\
    estimate e (M Q) (Some (M U)) = Ok (Q2, D2, Some (M U2)) /\ nrows U2 = nrows U /\ ncols U2 = ncols Q2.
(* the index of the first time for which a scheme gives an estimate *)
Definition first_time (s : scheme) : nat := match scheme_mode s with Some md => first_col md (scheme_order s) | None => 0 end.

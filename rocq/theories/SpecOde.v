(* SpecOde.v -- vocabulary for property C61 (prediction with time-continuous models). *)
From Coq Require Import ZArith Reals.
From Verif Require Export SpecRegsel OdeModel SpecRom.
#[local] Open Scope nat_scope.

(* dq/dt = v at state q with input u: the sum of what the operators of the model give *)
Definition velocity (d : model) (r : nat) (q : vec) (u : option vec) (v : vec) : Prop :=
  is_vec r v /\ exists ys, Forall2 (fun o yo => op_apply o (V q) (option_map V u) = Ok (V yo) /\ is_vec r yo) (m_ops d) ys /\
    forall i, i < r -> vget v i = lsum (map (fun yo => vget yo i) ys).

(* y starts at q0, is continuous on [a, b], and its derivative at t is v for some v with F t (y t) v, for t in (a, b).
   (What y is outside [a, b] does not matter: let it be constant there.) *)
Definition moves (r : nat) (F : R -> vec -> vec -> Prop) (a b : R) (q0 : vec) (y : R -> vec) : Prop :=
  y a = q0 /\ (forall t, (a <= t <= b)%R -> is_vec r (y t)) /\
  (forall t i, (a <= t <= b)%R -> i < r -> continuity_pt (fun s => vget (y s) i) t) /\
  forall t, (a < t < b)%R -> exists v, F t (y t) v /\ forall i, i < r -> derivable_pt_lim (fun s => vget (y s) i) t (vget v i).
(* y is a trajectory of the model with input U *)
Definition trajectory (d : model) (r : nat) (U : R -> option vec) (a b : R) (q0 : vec) (y : R -> vec) : Prop :=
  moves r (fun t q v => velocity d r q (U t) v) a b q0 y.
(* y solves the problem handed to the integrator *)
Definition ivp_solution (r : nat) (p : ivp) (y : R -> vec) : Prop :=
  moves r (fun t q v => iv_f p t q = Ok v) (iv_start p) (iv_end p) (iv_y0 p) y.

(* the input the caller means, at the times from t[0] to t[-1] *)
Definition spline_ok (spline : vec -> mat -> res (R -> vec)) : Prop :=
  forall t m U g, is_mat m (length t) U -> spline t U = Ok g ->
    (forall x, is_vec m (g x)) /\ forall j, j < length t -> g (vget t j) = colv m U j.
Definition signal (spline : vec -> mat -> res (R -> vec)) (d : model) (ts : vec) (a b : R) (inputs : option cinput) (U : R -> option vec) : Prop :=
  if m_hasin d then
    exists m, m_m d = Some m /\
    match inputs with
    | None => False
    | Some (InFun (FNum f)) => m = 1 /\ forall t, (a <= t <= b)%R -> U t = Some [f t]                              (* numbers, one input *)
    | Some (InFun (FArr f)) => forall t, (a <= t <= b)%R -> exists u, f t = V u /\ is_vec m u /\ U t = Some u        (* vectors *)
    | Some (InArr u) => is_mat m (length ts) (atleast_2d u) /\                                                       (* one column per time *)
                       exists g, spline ts (atleast_2d u) = Ok g /\ forall t, (a <= t <= b)%R -> U t = Some (g t)
    end
  else forall t, U t = None.
(* times in increasing order, at least one *)
Definition time_domain (ts : vec) (a b : R) : Prop :=
  ts <> [] /\ vget ts 0 = a /\ vget ts (length ts - 1) = b /\ forall i j, i < j -> j < length ts -> (vget ts i < vget ts j)%R.
(* inputs stay bounded *)
Definition bounded_signal (U : R -> option vec) (a b : R) : Prop :=
  exists B, forall t u i, (a <= t <= b)%R -> U t = Some u -> (Rabs (vget u i) <= B)%R.
(* s has one row per state variable, one column per time and only finite entries; its columns are within eps of y at the times ts *)
Definition samples (r : nat) (eps : R) (ts : vec) (y : R -> vec) (s : sol) : Prop :=
  exists Y, is_mat r (length ts) Y /\ s = map (map F) Y /\
    forall i j, i < r -> j < length ts -> (Rabs (mget Y i j - vget (y (vget ts j)) i) <= eps)%R.
(* the squared distance of two states *)
Definition gap (r : nat) (q q' : vec) : R := bsum r (fun i => Rsqr (vget q i - vget q' i)).

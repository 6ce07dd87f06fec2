(* SpecPGen.v -- vocabulary for the statements about parametric models made of operators of any class. *)
From Coq Require Import ZArith.
From Verif Require Export SpecGen PGenModel PGenLib.
#[local] Open Scope nat_scope.
#[local] Open Scope list_scope.

(* one matrix with n rows and k_i > 0 columns for each training parameter *)
Definition trajectories (n : nat) (ks : list nat) (As : list mat) : Prop := Forall2 (fun k A => 0 < k /\ is_mat n k A) ks As.
(* where snapshot 0 of trajectory i is, when the trajectories are put side by side *)
Definition start (ks : list nat) (i : nat) : nat := lsumn (firstn i ks).
Definition param (mus : list pval) (i : nat) : pval := nth i mus (PS 0%R).
Definition traj (As : list mat) (i : nat) : mat := nth i As [].

(* ---- what a class of parametric operators has to be: with training parameters mus, the operator has an r x w(mus) matrix E
   of entries; in the regression the term of training parameter i is E phi(mus, i)(q, u); at a parameter value mu in the
   domain, evaluate(mu) is an operator whose value is E psi(mus, mu)(q, u), and psi is phi at the training parameters ------ *)
Record yfeature := {
  yf_w : list pval -> nat;
  yf_phi : list pval -> nat -> vec -> vec -> vec;
  yf_psi : list pval -> pval -> vec -> vec -> vec;
  yf_dom : list pval -> pval -> Prop }.
Definition yterm (w : nat) (E : mat) (d : vec) (row : nat) : R := bsum w (fun b => (mget E row b * vget d b)%R).
Record plawful (r m : nat) (c : pocls) (f : yfeature) : Prop := {
  pl_pos : forall mus, mus <> [] -> 0 < yf_w f mus;
  pl_dim : forall mus mm, mus <> [] -> (pc_inputs c = true -> mm = Some m) -> pc_dim c (length mus) r mm = Ok (yf_w f mus);
  (* if datablock returns, the columns of the data block are the phi(mus, i)(q_ij, u_ij), trajectory after trajectory; classes without inputs
     ignore whatever is passed as inputs *)
  pl_block : forall mus ks Qs Us oUs, mus <> [] -> length ks = length mus -> trajectories r ks Qs -> trajectories m ks Us -> length oUs = length mus ->
    (pc_inputs c = true -> oUs = map (fun U => Some (M U)) Us) ->
    forall B, pc_block c mus Qs oUs = Ok B -> is_mat (yf_w f mus) (lsumn ks) B /\
      forall i j b, i < length mus -> j < nth i ks 0 -> b < yf_w f mus ->
        mget B b (start ks i + j) = vget (yf_phi f mus i (colv r (traj Qs i) j) (colv m (traj Us i) j)) b;
  (* set_entries, if it returns, has stored the matrix it is given (an interpolated operator knows its training parameters) *)
  pl_set : forall mus t E, mus <> [] -> (pc_itp c = true -> t = Some mus) -> is_mat r (yf_w f mus) E ->
    forall E', pc_set c t E = Ok E' -> E' = E;
  pl_eval : forall mus t E mu, mus <> [] -> (pc_itp c = true -> t = Some mus) -> is_mat r (yf_w f mus) E -> yf_dom f mus mu ->
    exists c' E' g, pc_eval c t E mu = Ok (c', E') /\ lawful r m c' g /\ is_mat r (fst g) E' /\ (oc_inputs c' = true -> pc_inputs c = true) /\
      forall q u i, is_vec r q -> is_vec m u -> i < r -> term g E' q u i = yterm (yf_w f mus) E (yf_psi f mus mu q u) i;
  pl_psi : forall mus i q u b, i < length mus -> yf_dom f mus (param mus i) -> is_vec r q -> is_vec m u -> b < yf_w f mus ->
    vget (yf_psi f mus (param mus i) q u) b = vget (yf_phi f mus i q u) b }.
(* a nonparametric class *)
Definition non_feature (g : feature) : yfeature :=
  {| yf_w := fun _ => fst g; yf_phi := fun _ _ => snd g; yf_psi := fun _ _ => snd g; yf_dom := fun _ _ => True |}.

(* ---- the model: what is said of every operator given to the constructor ----------------------------------------------------- *)
Inductive ydesc :=
| Learn (f : yfeature)                                         (* no entries: to be learned *)
| Given (v : pval -> vec -> vec -> nat -> R).                  (* entries given: its value at (mu, q, u), row by row *)
Definition ydescribed (r m : nat) (a : yarg) (x : ydesc) : Prop :=
  match ya_cls a, ya_ent a, x with
  | YNon c, None, Learn f => exists g, lawful r m c g /\ f = non_feature g
  | YPar c, None, Learn f => plawful r m c f
  | YNon c, Some E, Given v => exists g, lawful r m c g /\ is_mat r (fst g) E /\ forall mu q u i, v mu q u i = term g E q u i
  | YPar c, Some E, Given v => forall mu x, pc_eval c (ya_train a) E mu = Ok x ->
      exists g, lawful r m (fst x) g /\ is_mat r (fst g) (snd x) /\ (oc_inputs (fst x) = true -> pc_inputs c = true) /\
        forall q u i, is_vec r q -> is_vec m u -> i < r -> term g (snd x) q u i = v mu q u i
  | _, _, _ => False
  end.
Definition y_any_inputs (args : list yarg) : Prop := exists a, In a args /\ y_inputs (ya_cls a) = true.
(* parametric operators with entries know the dimension of their parameters, as all of the library do that do not take coefficients as a function *)
Definition self_sized (args : list yarg) : Prop := forall a E, In a args -> ya_ent a = Some E -> y_par (ya_cls a) = true -> ya_p a <> None.
Definition y_some_unknown (args : list yarg) : Prop := exists a, In a args /\ ya_ent a = None.

(* training data: for each of the s > 0 parameters, r states, as many left-hand sides, and m inputs if any operator takes
   inputs (if none does, inputs are None or a list of s arrays, which are ignored) *)
Record ydata (r m : nat) (args : list yarg) (mus : list pval) (states lhs : list arr) (inputs : option (list arr)) (ks : list nat) (Qs Zs Us : list mat) : Prop := {
  yd_mus : mus <> [];
  yd_ks : length ks = length mus;
  yd_Q : map atleast_2d states = Qs /\ trajectories r ks Qs;
  yd_Z : map atleast_2d lhs = Zs /\ trajectories r ks Zs;
  yd_U : trajectories m ks Us;
  yd_in : y_any_inputs args -> exists us, inputs = Some us /\ map atleast_2d us = Us;
  yd_len : forall us, inputs = Some us -> length us = length mus }.

(* one matrix for every operator that is learned *)
Fixpoint yshapes (r : nat) (mus : list pval) (xs : list ydesc) (Es : list mat) : Prop :=
  match xs, Es with
  | [], [] => True
  | Given _ :: xs', _ => yshapes r mus xs' Es
  | Learn f :: xs', E :: Es' => is_mat r (yf_w f mus) E /\ yshapes r mus xs' Es'
  | _, _ => False
  end.
Fixpoint yunknowns (mus : list pval) (xs : list ydesc) : nat :=
  match xs with
  | [] => 0
  | Given _ :: xs' => yunknowns mus xs'
  | Learn f :: xs' => yf_w f mus + yunknowns mus xs'
  end.
(* the value of the model at training parameter i, in the regression *)
Fixpoint yvalue (mus : list pval) (i : nat) (xs : list ydesc) (Es : list mat) (q u : vec) (row : nat) : R :=
  match xs, Es with
  | Given v :: xs', _ => (v (param mus i) q u row + yvalue mus i xs' Es q u row)%R
  | Learn f :: xs', E :: Es' => (yterm (yf_w f mus) E (yf_phi f mus i q u) row + yvalue mus i xs' Es' q u row)%R
  | _, _ => 0%R
  end.
(* the value of the model at any parameter value mu *)
Fixpoint yvalue_at (mus : list pval) (mu : pval) (xs : list ydesc) (Es : list mat) (q u : vec) (row : nat) : R :=
  match xs, Es with
  | Given v :: xs', _ => (v mu q u row + yvalue_at mus mu xs' Es q u row)%R
  | Learn f :: xs', E :: Es' => (yterm (yf_w f mus) E (yf_psi f mus mu q u) row + yvalue_at mus mu xs' Es' q u row)%R
  | _, _ => 0%R
  end.
(* the parameter values at which every operator can be evaluated: as many components as the training parameters have, and in the domain *)
Definition y_defined (mus : list pval) (mu : pval) (a : yarg) (x : ydesc) : Prop :=
  (y_par (ya_cls a) = true -> params_dim mus = Ok (plen mu)) /\
  match x with
  | Learn f => yf_dom f mus mu
  | Given _ => match ya_cls a, ya_ent a with YPar c, Some E => exists x, pc_eval c (ya_train a) E mu = Ok x | _, _ => True end
  end.
(* sum_i sum_j (f_Es(mu_i, q_ij, u_ij)_row - z_ij,row)^2 *)
Definition ymisfit (r m : nat) (mus : list pval) (ks : list nat) (xs : list ydesc) (Es : list mat) (Qs Zs Us : list mat) (row : nat) : R :=
  bsum (length mus) (fun i => bsum (nth i ks 0) (fun j =>
    Rsqr (yvalue mus i xs Es (colv r (traj Qs i) j) (colv m (traj Us i) j) row - mget (traj Zs i) row j))).

(* histories of successful calls *)
Inductive yreach (X : lsx) (r m : nat) (args : list yarg) : ymodel -> Prop :=
| yr_new s d : (forall s0, s = Some s0 -> fresh_solver (x_lsvd X) s0) -> ymk args s = Ok d -> yreach X r m args d
| yr_fit d mus states lhs inputs ks Qs Zs Us d' : yreach X r m args d -> ydata r m args mus states lhs inputs ks Qs Zs Us ->
    yfit X d mus states lhs inputs = Ok d' -> yreach X r m args d'
| yr_reg d g d' : yreach X r m args d -> valid_reg g -> yset_regularizer g d = Ok d' -> yreach X r m args d'
| yr_refit d d' : yreach X r m args d -> yrefit X d = Ok d' -> yreach X r m args d'.
(* after fit() with these data, and any number of times a new regularizer and refit() *)
Inductive ysession (X : lsx) (r m : nat) (args : list yarg) (mus : list pval) (states lhs : list arr) (inputs : option (list arr)) : ymodel -> Prop :=
| ys_fit d d' : yreach X r m args d -> yfit X d mus states lhs inputs = Ok d' -> ysession X r m args mus states lhs inputs d'
| ys_refit d g d1 d' : ysession X r m args mus states lhs inputs d -> valid_reg g -> yset_regularizer g d = Ok d1 -> yrefit X d1 = Ok d' ->
    ysession X r m args mus states lhs inputs d'.
(* what fit() and refit() leave behind: the operators are those given, in their order, and the given entries are untouched; each of the others
   has a matrix of its size; rhs(mu, q, u) is the sum of the operators' values at mu; and no other matrices have a smaller
   misfit over all training parameters and snapshots, plus penalty (that of the solver's regularizer), in any row *)
Definition ylearns (r m : nat) (args : list yarg) (xs : list ydesc) (mus : list pval) (ks : list nat) (Qs Zs Us : list mat) (d' : ymodel) : Prop :=
  exists Es, yshapes r mus xs Es /\
    map yo_cls (ym_ops d') = map ya_cls args /\
    (forall i a E, nth_error args i = Some a -> ya_ent a = Some E -> exists o, nth_error (ym_ops d') i = Some o /\ yo_ent o = Some E) /\
    map yo_ent (filter (fun o => negb (yo_known o)) (ym_ops d')) = map Some Es /\
    (forall mu q u ou, Forall2 (y_defined mus mu) args xs -> is_vec r q -> is_vec m u -> (y_any_inputs args -> ou = Some (V u)) ->
       exists y, yrhs d' mu (V q) ou = Ok (V y) /\ is_vec r y /\ forall i, i < r -> vget y i = yvalue_at mus mu xs Es q u i) /\
    exists s, ym_solver d' = Some s /\ forall pen, penalty s (yunknowns mus xs) = Some pen -> forall Es' row, yshapes r mus xs Es' -> row < r ->
      (ymisfit r m mus ks xs Es Qs Zs Us row + pen (hstack Es) row <= ymisfit r m mus ks xs Es' Qs Zs Us row + pen (hstack Es') row)%R.

(* ---- the parametric classes of the library, over any nonparametric class with E phi(q, u) ------------------------------------- *)
(* (th_0 d, th_1 d, ...): the features of [E_0 E_1 ...] -> (sum_l th_l E_l) d *)
Definition spread (n w : nat) (th : nat -> R) (d : vec) : vec := map (fun b => Rmult (th (b / w)) (vget d (b mod w))) (seq 0 (n * w)).
(* n coefficient functions, defined where theta returns *)
Definition coefs (theta : pval -> res vec) (mu : pval) : nat -> R := match theta mu with Ok th => vget th | Err _ => fun _ => 0%R end.
Definition aff_feature (g : feature) (n : nat) (theta : pval -> res vec) : yfeature :=
  {| yf_w := fun _ => n * fst g;
     yf_phi := fun mus i q u => spread n (fst g) (coefs theta (param mus i)) (snd g q u);
     yf_psi := fun _ mu q u => spread n (fst g) (coefs theta mu) (snd g q u);
     yf_dom := fun _ mu => exists th, theta mu = Ok th |}.
(* an interpolation method that is linear in the data, as CubicSpline and LinearNDInterpolator are: on the domain, the value at
   mu is sum_l ell_l(mu) A_l, and the value at training parameter i is A_i *)
Record linear_interp (C : iclass) (dom : list pval -> pval -> Prop) (ell : list pval -> pval -> nat -> R) : Prop := {
  li_value : forall r w mus mu es, mus <> [] -> dom mus mu -> length es = length mus -> Forall (is_mat r w) es ->
    exists f E, C (map norm mus) es = Ok f /\ f (norm mu) = Ok E /\ is_mat r w E /\
      forall i b, i < r -> b < w -> mget E i b = bsum (length mus) (fun l => (ell mus mu l * mget (nth l es []) i b)%R);
  li_train : forall mus i l, i < length mus -> l < length mus -> dom mus (param mus i) -> ell mus (param mus i) l = if l =? i then 1%R else 0%R }.
(* any interpolation method, linear or not, whose value at training parameter i is A_i: the domain is the training parameters *)
Definition exact_interp (C : iclass) (good : list pval -> Prop) : Prop :=
  forall r w mus es, mus <> [] -> good mus -> length es = length mus -> Forall (is_mat r w) es ->
    exists f, C (map norm mus) es = Ok f /\ forall i, i < length mus -> f (norm (param mus i)) = Ok (nth i es []).
Definition itp_feature (g : feature) (dom : list pval -> pval -> Prop) (ell : list pval -> pval -> nat -> R) : yfeature :=
  {| yf_w := fun mus => length mus * fst g;
     yf_phi := fun mus i q u => spread (length mus) (fst g) (fun l => if l =? i then 1%R else 0%R) (snd g q u);
     yf_psi := fun mus mu q u => spread (length mus) (fst g) (ell mus mu) (snd g q u);
     yf_dom := dom |}.
(* the weights and the domain of a method of the second kind *)
Definition one_of_them (good : list pval -> Prop) (mus : list pval) (mu : pval) : Prop := good mus /\ NoDup mus /\ In mu mus.
Definition pval_dec (a b : pval) : {a = b} + {a <> b}.
Proof. decide equality; [apply Req_EM_T|apply list_eq_dec, Req_EM_T]. Defined.
Definition one_hot (mus : list pval) (mu : pval) (l : nat) : R := if pval_dec (param mus l) mu then 1%R else 0%R.

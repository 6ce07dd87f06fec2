(* SpecBayes.v -- vocabulary for property C56 (posteriors, sampled operators, Bayesian reduced-order models). *)
From Coq Require Import ZArith Reals.
From Verif Require Export BayesModel SpecRegsel.
#[local] Open Scope nat_scope.

(* what scipy computes from a precision matrix, if it does not raise, is its inverse *)
Definition inverts (MX : mvn) : Prop :=
  forall w P C, 0 < w -> is_mat w w P -> x_cov MX P = Ok C ->
    is_mat w w C /\ forall a b, a < w -> b < w -> bsum w (fun l => mget P a l * mget C l b)%R = if a =? b then 1%R else 0%R.
(* a sample has as many entries as the mean *)
Definition keeps_size {G} (normal : vec -> mat -> G -> G * vec) : Prop := forall v C g, length (snd (normal v C g)) = length v.

(* the data matrix and the left-hand side of the regression the solver was fitted to *)
Definition solver_data (s : lsq) : option (mat * mat) :=
  match s with
  | LPlain p => pl_data p
  | LL2 p => odata (l2_pre p)
  | LL2D p => odata (ld_pre p)
  | LTik p => tk_data p
  | LTikD p => td_data p
  | LTsvd p => odata (ts_pre p)
  | LTls p => tl_data p
  end.
(* the matrix G'G of the penalty |G o_i|^2 of row i *)
Definition gram (s : lsq) (w i a b : nat) : R :=
  match s with
  | LL2 p => match l2_reg p with Some lam => if a =? b then (lam * lam)%R else 0%R | None => 0%R end
  | LL2D p => match ld_reg p with Some v => if a =? b then (vget v i * vget v i)%R else 0%R | None => 0%R end
  | LTik p => match tk_reg p with Some H => bsum w (fun c => mget H c a * mget H c b)%R | None => 0%R end
  | LTikD p => match td_reg p with Some Hs => bsum w (fun c => mget (nth i Hs []) c a * mget (nth i Hs []) c b)%R | None => 0%R end
  | _ => 0%R
  end.
(* p is the posterior of the regression that s holds: the means solve it, and the covariance matrix of row i is the inverse of
   (D'D + G'G) / v, where v is the misfit plus penalty of row i per snapshot *)
Definition is_posterior (s : lsq) (p : post) : Prop :=
  exists D Z pen, solver_data s = Some (D, Z) /\ penalty s (ncols D) = Some pen /\
    let k := nrows D in let w := ncols D in let r := nrows Z in
    dims D Z k w r /\ row_minimizer r w (fun A i => misfit k w D Z A i + pen A i)%R (po_means p) /\ length (po_covs p) = r /\
    forall i, i < r -> let v := ((misfit k w D Z (po_means p) i + pen (po_means p) i) / INR k)%R in let C := nth i (po_covs p) [] in
      (0 < v)%R /\ is_mat w w C /\
      forall a b, a < w -> b < w -> bsum w (fun l => (bsum k (fun t => mget D t a * mget D t l) + gram s w i a l) * mget C l b)%R = if a =? b then v else 0%R.
(* ... in terms of the snapshots that a model d was fitted to: the misfit of row i is the residual of d in that row *)
Definition misfit_of_data (d : model) (s : lsq) (states lhs : arr) (inputs : option arr) (p : post) : Prop :=
  let Q := atleast_2d states in let Z := atleast_2d lhs in
  exists r k D L, m_r d = Some r /\ 0 < k /\ is_mat r k Q /\ is_mat r k Z /\ solver_data s = Some (D, L) /\ nrows D = k /\ nrows L = r /\
    operator_matrix d = Ok (po_means p) /\
    forall i, i < r -> residual_row d r k Q Z inputs i (misfit k (ncols D) D L (po_means p) i).

Section Samples.
  Context {G : Type}.
  Variable normal : vec -> mat -> G -> G * vec.
  (* A is a sample of the operator matrix: row i is a sample of distribution i, drawn after those of the rows before *)
  Definition samples (p : post) (g : G) (A : mat) (g' : G) : Prop :=
    length A = length (po_means p) /\
    exists gs : nat -> G, gs 0 = g /\ gs (length A) = g' /\
      forall i, i < length A -> normal (nth i (po_means p) []) (nth i (po_covs p) []) (gs i) = (gs (S i), nth i A []).
  (* d' is d with learned operators that make up the operator matrix A *)
  Definition carries (d : model) (A : mat) (d' : model) : Prop :=
    same_roles d d' /\ m_solver d' = m_solver d /\ m_r d' = m_r d /\ m_m d' = m_m d /\ m_frozen d' = m_frozen d /\ m_intrusive d' = m_intrusive d /\
    operator_matrix d' = Ok A /\
    exists r m, m_r d = Some r /\ m_m d = Some m /\ distributed d' r m A.
  (* ds are models with operators drawn one after the other *)
  Inductive successive (d : model) (p : post) : G -> list model -> G -> Prop :=
  | succ_nil g : successive d p g [] g
  | succ_cons g A g1 d1 ds g' : samples p g A g1 -> carries d A d1 -> successive d p g1 ds g' -> successive d p g (d1 :: ds) g'.
  (* any number of draws, from s on *)
  Inductive after_draws (s : bstate G) : bstate G -> Prop :=
  | ad_none : after_draws s s
  | ad_draw s1 s2 x : after_draws s s1 -> draw normal s1 = (s2, x) -> after_draws s s2.
End Samples.

(* ---- the search ------------------------------------------------------------------------------------------------------------- *)
(* f is called with the parameters and answers listed in L, in that order; its memory goes from s to s' *)
Inductive calls {St} (f : St -> param -> St * res fnum) : St -> list (St * param * res fnum) -> St -> Prop :=
| calls_nil s : calls f s [] s
| calls_cons s p r s1 L s' : f s p = (s1, r) -> calls f s1 L s' -> calls f s ((s, p, r) :: L) s'.

(* m is the mean of the solutions ss, which are finite, in the first k columns of the n rows *)
Definition mean_of (n k : nat) (ss : list sol) (m : sol) : Prop :=
  0 < length ss /\ forall i j, i < n -> j < k -> exists f, (forall a, a < length ss -> fentry (nth a ss []) i j = F (f a)) /\ fentry m i j = F (bsum (length ss) f / INR (length ss))%R.
(* The models ds that were drawn for a candidate are acceptable, with error e: there are N for each test, which all pass, then N
   for each trajectory, with error x for each trajectory, and e is the sum of these errors over the number of trajectories. *)
Definition acceptable (tests : list (model -> Prop)) (cases : list (list model -> R -> Prop)) (N total : nat) (ds : list model) (e : R) : Prop :=
  exists T D xs, ds = concat T ++ concat D /\ Forall2 (fun t l => length l = N /\ Forall t l) tests T /\ length D = length xs /\
    Forall2 (fun c lx => length (fst lx) = N /\ c (fst lx) (snd lx)) cases (combine D xs) /\ e = (lsum xs / INR total)%R.
(* a trajectory, time-discrete: the predictions of all models stay within the margin, and x is the relative error of their mean *)
Definition fits_discrete (PR : dpredict) (margin : R) (n : nat) (ntest : Z) (Eu : mat * option inputarg) (ds : list model) (x : R) : Prop :=
  let E := fst Eu in
  exists ss m, Forall2 (fun d s => continues_discrete PR d n E (snd Eu) ntest s /\ within_margin margin n (ncols E) E (ncols E + Z.to_nat ntest) s) ds ss /\
    mean_of n (ncols E) ss m /\ relative_error n (ncols E) E m x.
(* ... and time-continuous *)
Definition fits_continuous (PR : cpredict) (margin : R) (n : nat) (c : ctraj) (ds : list model) (x : R) : Prop :=
  let E := cj_data c in
  exists ss m, Forall2 (fun d s => continues_continuous PR d n c s /\ not_seen_outside margin n (ncols E) E (length (cj_times c)) s) ds ss /\
    mean_of n (ncols E) ss m /\ relative_error_in_time n (ncols E) (firstn (ncols E) (cj_times c)) E m x.

Section Trials.
  Context {G : Type}.
  Variables (normal : vec -> mat -> G -> G * vec) (LX : lsx) (MX : mvn) (factory : param -> res sreg) (d0 : model).
  (* d is d0 with the regularizer for p *)
  Definition with_candidate (p : param) (d : model) : Prop :=
    exists g s, factory p = Ok g /\ m_solver d0 = Some s /\ reg_fits s g = true /\ set_regularizer g d0 = (d, Ok tt).
  Variables (tests : list (model -> Prop)) (cases : list (list model -> R -> Prop)) (N total : nat).
  (* candidate p, tried when the generator is in state h, is acceptable with error e *)
  Definition succeeds (p : param) (h : G) (e : R) (h' : G) : Prop :=
    exists d q ds, with_candidate p d /\ posterior_of LX MX d = Ok q /\ successive normal d q h ds h' /\ acceptable tests cases N total ds e.
  Definition fails (p : param) (h h' : G) : Prop :=
    (forall e h2, ~ succeeds p h e h2) /\ exists d, with_candidate p d /\ (posterior_of LX MX d = Err LinAlgError /\ h' = h \/ exists q ds, posterior_of LX MX d = Ok q /\ successive normal d q h ds h').
  (* candidates are tried one after the other, the generator going from h to h' *)
  Inductive trials : G -> list (param * option R) -> G -> Prop :=
  | tr_nil h : trials h [] h
  | tr_ok h p e h1 L h' : succeeds p h e h1 -> trials h1 L h' -> trials h ((p, Some e) :: L) h'
  | tr_no h p h1 L h' : fails p h h1 -> trials h1 L h' -> trials h ((p, None) :: L) h'.
End Trials.

(* the arrays that the trajectories contribute to the regression are non-empty and rectangular *)
Definition good_contributions (P : parts) (D : option ddter) (cont : bool) (Qs : list arr) (Zs Us : option (list arr)) : Prop :=
  forall es ds us, contributions P D cont Qs Zs Us es ds us -> Forall good_arr es /\ Forall good_arr ds /\ forall l, us = Some l -> Forall good_arr l.

(* what was selected is installed: b holds the posterior p of the model d, whose solver b has, and its draws are draws for d from p *)
Definition selected {G} (normal : vec -> mat -> G -> G * vec) (d : model) (p : post) (b : brom) : Prop :=
  br_post b = Some p /\ (exists s, m_solver (rm_model (br_rom b)) = Some s /\ m_solver d = Some s /\ is_posterior s p) /\
  forall g, exists A g' b', draw_operators normal b g = (b', g', Ok tt) /\ samples normal p g A g' /\ carries d A (rm_model (br_rom b')).

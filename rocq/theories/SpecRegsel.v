(* SpecRegsel.v -- vocabulary for property C53 (selection of the regularization). *)
From Coq Require Import ZArith Reals.
From Verif Require Export SpecPost RegselModel.
#[local] Open Scope nat_scope.

(* d' is d with the regularizer for p, which has to be one for the class of solver of d, refitted *)
Definition retrained (LX : lsx) (factory : param -> res sreg) (d : model) (p : param) (d' : model) : Prop :=
  exists g s d2, factory p = Ok g /\ m_solver d = Some s /\ reg_fits s g = true /\ set_regularizer g d = (d2, Ok tt) /\ refit LX d2 = (d', Ok tt).

(* what the first fit leaves behind: its parts are fitted, the trajectories are encoded to es, and the solver of its model has the
   stacked data.  Us are the inputs at the snapshots. *)
Definition prepared (LX : lsx) (r r1 : rom) (ft : bool) (fb : option BasisModel.ext) (Qs : list arr) (Zs Us : option (list arr)) (es : list arr) : Prop :=
  exists ds us Q L U, fitted_on ft fb Qs (rm_parts r) (rm_parts r1) /\ contributions (rm_parts r1) (rm_ddt r) (rm_cont r) Qs Zs Us es ds us /\
    hstack_arr es = Ok Q /\ hstack_arr ds = Ok L /\ hstack_opt us = Ok U /\ fit_solver LX (rm_model r) Q L U = (rm_model r1, Ok tt) /\ rm_ddt r1 = rm_ddt r.

(* ---- data of n rows and k columns: the row means and the largest distance from them --------------------------------------- *)
Definition row_mean (k : nat) (E : mat) (i : nat) : R := (bsum k (fun j => mget E i j) / INR k)%R.
Definition is_spread (n k : nat) (E : mat) (m : R) : Prop :=
  (forall i j, i < n -> j < k -> (Rabs (mget E i j - row_mean k E i) <= m)%R) /\ exists i j, i < n /\ j < k /\ (Rabs (mget E i j - row_mean k E i) = m)%R.
(* the N columns of the solution s are finite and stay within margin times the spread of E around the row means of E
   (unless that is zero) *)
Definition within_margin (margin : R) (n k : nat) (E : mat) (N : nat) (s : sol) : Prop :=
  forall i j, i < n -> j < N -> exists q, fentry s i j = F q /\
    forall m, is_spread n k E m -> (margin * m <> 0)%R -> (Rabs (q - row_mean k E i) <= margin * m)%R.
(* the N columns of the solution s are finite and stay within the bound around c *)
Definition within_bound (bound : option R) (c : vec) (N : nat) (s : sol) : Prop :=
  forall i j, i < length c -> j < N -> exists q, fentry s i j = F q /\ forall b, bound = Some b -> (Rabs (q - vget c i) <= b)%R.
(* x is the relative error of the first k columns of s, in the Frobenius norm *)
Definition relative_error (n k : nat) (E : mat) (s : sol) (x : R) : Prop :=
  exists Y, is_mat n k Y /\ (forall i j, i < n -> j < k -> fentry s i j = F (mget Y i j)) /\
    (sumsq n k E <> 0)%R /\ x = (sqrt (gap2 n k E Y) / sqrt (sumsq n k E))%R.
(* ... and in the L2 norm over the times t *)
Definition relative_error_in_time (n k : nat) (t : vec) (E : mat) (s : sol) (x : R) : Prop :=
  exists Y a b, is_mat n k Y /\ (forall i j, i < n -> j < k -> fentry s i j = F (mget Y i j)) /\
    is_Lpnorm (SpecPost.Fin 2) n k (vget t) (fun i j => mget E i j - mget Y i j)%R a /\ is_Lpnorm (SpecPost.Fin 2) n k (vget t) (mget E) b /\
    (b <> 0)%R /\ x = (a / b)%R.

(* ---- time-discrete ------------------------------------------------------------------------------------------------------------ *)
(* predict returns one row per entry of the initial state, and one column per step *)
Definition steps_well (PR : dpredict) : Prop :=
  forall d q N u s, PR d (V q) N u = Ok s -> length s = length q /\ Forall (fun row => length row = Z.to_nat N) s.
(* the training data of trajectory Q in reduced coordinates: all snapshots but the last *)
Definition reduced (P : parts) (n : nat) (Q : arr) (E : mat) : Prop :=
  exists C k, encode1 P Q = Ok (M C) /\ is_mat n (k + 1) C /\ E = map (@removelast R) C.
(* the model passes a test case *)
Definition passes_discrete (PR : dpredict) (P : parts) (d : model) (c : dtest) : Prop :=
  exists ic s, encode1 P (dt_ic c) = Ok (V ic) /\ PR d (V ic) (dt_iters c) (dt_inputs c) = Ok s /\ within_bound (dt_bound c) ic (Z.to_nat (dt_iters c)) s.
(* what the model predicts for the data E from their first column on, for ntest more steps *)
Definition continues_discrete (PR : dpredict) (d : model) (n : nat) (E : mat) (u : option inputarg) (ntest : Z) (s : sol) : Prop :=
  PR d (V (colv n E 0)) (Z.of_nat (ncols E) + ntest)%Z u = Ok s.
(* the model is stable, and e is its mean relative error on the training data *)
Definition stable_discrete (PR : dpredict) (P : parts) (tests : list dtest) (margin : R) (n : nat) (Es : list mat) (us : list (option inputarg)) (ntest : Z) (d : model) : Prop :=
  Forall (passes_discrete PR P d) tests /\
  Forall2 (fun E u => exists s, continues_discrete PR d n E u ntest s /\ within_margin margin n (ncols E) E (ncols E + Z.to_nat ntest) s) Es us.
Definition mean_error_discrete (PR : dpredict) (n : nat) (Es : list mat) (us : list (option inputarg)) (ntest : Z) (d : model) (e : R) : Prop :=
  exists xs, Forall2 (fun Eu x => exists s, continues_discrete PR d n (fst Eu) (snd Eu) ntest s /\ relative_error n (ncols (fst Eu)) (fst Eu) s x) (combine Es us) xs /\
    e = (lsum xs / INR (length Es))%R.

(* predict raises for none of the test cases and trajectories *)
Definition predicts_discrete (PR : dpredict) (P : parts) (tests : list dtest) (n : nat) (Es : list mat) (us : list (option inputarg)) (ntest : Z) (d : model) : Prop :=
  Forall (fun c => forall ic, encode1 P (dt_ic c) = Ok (V ic) -> exists s, PR d (V ic) (dt_iters c) (dt_inputs c) = Ok s) tests /\
  Forall2 (fun E u => exists s, continues_discrete PR d n E u ntest s) Es us.

(* ---- time-continuous ------------------------------------------------------------------------------------------------------------ *)
(* predict returns one row per entry of the initial state; the solver may have stopped early *)
Definition solves_well (PR : cpredict) : Prop :=
  forall d q t u s, PR d (V q) t u = Ok s -> length s = length q /\ exists w, Forall (fun row => length row = w) s.
(* one column for each of N times *)
Definition complete (N : nat) (s : sol) : Prop := Forall (fun row => length row = N) s.
Definition passes_continuous (PR : cpredict) (P : parts) (d : model) (c : ctest) : Prop :=
  exists ic s, encode1 P (ct_ic c) = Ok (V ic) /\ PR d (V ic) (ct_times c) (ct_inputs c) = Ok s /\ complete (length (ct_times c)) s /\
    within_bound (ct_bound c) ic (length (ct_times c)) s.
(* a trajectory: reduced data, input function, and the times to predict it at, of which the first ones are those of the data *)
Record ctraj := { cj_data : mat; cj_input : option infun; cj_times : vec }.
Definition continues_continuous (PR : cpredict) (d : model) (n : nat) (c : ctraj) (s : sol) : Prop :=
  PR d (V (colv n (cj_data c) 0)) (cj_times c) (cj_input c) = Ok s /\ complete (length (cj_times c)) s.
Definition predicts_continuous (PR : cpredict) (P : parts) (tests : list ctest) (n : nat) (cs : list ctraj) (d : model) : Prop :=
  Forall (fun c => forall ic, encode1 P (ct_ic c) = Ok (V ic) -> exists s, PR d (V ic) (ct_times c) (ct_inputs c) = Ok s) tests /\
  Forall (fun c => exists s, PR d (V (colv n (cj_data c) 0)) (cj_times c) (cj_input c) = Ok s) cs.
Definition has_nan (s : sol) : Prop := exists i j, fentry s i j = SpecLift.NaN /\ i < length s /\ j < length (nth i s []).
(* within the margin, if the solution has no nan *)
Definition not_seen_outside (margin : R) (n k : nat) (E : mat) (N : nat) (s : sol) : Prop :=
  has_nan s \/ (forall m, is_spread n k E m -> (margin * m <> 0)%R -> within_margin margin n k E N s).
Definition accepted_continuous (within : R -> nat -> nat -> mat -> nat -> sol -> Prop) (PR : cpredict) (P : parts) (tests : list ctest) (margin : R) (n : nat) (cs : list ctraj) (d : model) : Prop :=
  Forall (passes_continuous PR P d) tests /\
  Forall (fun c => exists s, continues_continuous PR d n c s /\ within margin n (ncols (cj_data c)) (cj_data c) (length (cj_times c)) s) cs.
(* stable: finite and within the margin; not seen unstable: a solution with nan counts, too *)
Definition stable_continuous := accepted_continuous within_margin.
Definition not_seen_unstable := accepted_continuous not_seen_outside.
Definition mean_error_continuous (PR : cpredict) (n : nat) (cs : list ctraj) (total : nat) (d : model) (e : R) : Prop :=
  exists xs, Forall2 (fun c x => exists s, continues_continuous PR d n c s /\
      relative_error_in_time n (ncols (cj_data c)) (firstn (ncols (cj_data c)) (cj_times c)) (cj_data c) s x) cs xs /\
    e = (lsum xs / INR total)%R.
(* the trajectories of a search: trajectory i has the encoded states, its input function, and its times, extended by len *)
Definition ctrajs (P : parts) (us : option (list infun)) (len : R) (ts : list vec) (Qs : list mat) (cs : list ctraj) : Prop :=
  length cs = length Qs /\
  forall i Q t, nth_error Qs i = Some Q -> nth_error ts i = Some t -> exists c, nth_error cs i = Some c /\
    encode1 P (M Q) = Ok (M (cj_data c)) /\ cj_input c = (match us with None => None | Some l => nth_error l i end) /\ extend_times len t = Ok (cj_times c).
(* the inputs the first fit gets: column j of array i is input function i at time j of domain i *)
Definition sampled (us : option (list infun)) (ts : list vec) (Us : option (list arr)) : Prop :=
  match us, Us with
  | None, None => True
  | Some l, Some al => length al = length l /\ forall i u t m, nth_error l i = Some u -> nth_error ts i = Some t -> (forall x, length (u x) = m) ->
      exists U, nth_error al i = Some (M U) /\ is_mat m (length t) U /\ forall j, j < length t -> colv m U j = u (vget t j)
  | _, _ => False
  end.

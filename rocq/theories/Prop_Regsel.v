(* Prop_Regsel.v -- property C53: selection of the regularization. *)
From Coq Require Import ZArith Reals Lra Lia List.
From Verif Require Import MonoEx PreFinal RomParts RomFit RomEx GridFinal RegselEx SpecRegsel SpecGrid SpecRom.
#[local] Open Scope nat_scope.

(* C53, time-discrete: if fit_regselect_discrete succeeds, the installed model is the first fit, refitted with the regularization of some q.  It is stable: on every test case and from the start of every training trajectory to the end of the test horizon.  Its mean training error is at most that of every candidate that is stable. *)
Theorem C53_discrete_best :
  forall LX PR bounded nm r c T ft fb factory only ntest margin tests r' Qs Us n0 n p ks,
  steps_well PR -> (forall a b, honest [] (bounded a b)) -> (forall x, honest [] (nm x)) ->
  trajectories_of T (map M Qs) None Us -> blocks n0 ks Qs -> 0 < p -> trained_parts n p (rm_parts r') -> columnwise_lifter n0 n (rp_lift (rm_parts r')) ->
  regselect_discrete LX PR bounded nm r c T ft fb factory only ntest margin tests = (r', Ok tt) ->
  exists r1 Es q e, prepared LX r r1 ft fb (map M Qs) None Us (map M Es) /\ rm_parts r' = rm_parts r1 /\ rm_ddt r' = rm_ddt r1 /\
    Forall2 (fun k E => is_mat p (k - 1) E) ks Es /\ Forall2 (fun Q E => exists C, encode1 (rm_parts r') (M Q) = Ok (M C) /\ E = map (@removelast R) C) Qs Es /\
    retrained LX factory (rm_model r1) q (rm_model r') /\
    stable_discrete PR (rm_parts r') tests margin p Es (inputs_for (length Es) Us) ntest (rm_model r') /\
    mean_error_discrete PR p Es (inputs_for (length Es) Us) ntest (rm_model r') e /\
    forall q' d' e', In q' (points c) -> retrained LX factory (rm_model r1) q' d' -> stable_discrete PR (rm_parts r') tests margin p Es (inputs_for (length Es) Us) ntest d' ->
      mean_error_discrete PR p Es (inputs_for (length Es) Us) ntest d' e' -> (e <= e')%R.
Proof. exact discrete_best. Qed.
Print Assumptions C53_discrete_best.

(* C53, time-discrete: if no candidate is stable (with a finite training error), RuntimeError is raised. *)
Theorem C53_discrete_none :
  forall (LX : lsx) (PR : dpredict) (bounded : R -> R -> strat) (nm : list fnum -> strat) (r : rom) (c : cand_arg) (T : training) (ft : bool) (fb : option BasisModel.ext)
    (factory : param -> res sreg) (only : bool) (ntest : Z) (margin : R) (tests : list dtest) (Qs : list mat) (Us : option (list arr)) (n0 n p : nat) (ks : list nat) (r1 : rom) (Es : list mat),
  steps_well PR -> rm_cont r = false -> has_regularizer (rm_model r) = true -> trajectories_of T (map M Qs) None Us -> (0 <= ntest)%Z ->
  dinputs_ok ntest (map M Qs) Us = Ok tt -> well_shaped c -> blocks n0 ks Qs -> Forall (lt 1) ks -> Qs <> [] -> 0 < n0 -> 0 < p ->
  rom_fit_with (fit_solver LX) r (Several (map M Qs) None Us) ft fb = (r1, Ok (map M Es)) -> trained_parts n p (rm_parts r1) -> columnwise_lifter n0 n (rp_lift (rm_parts r1)) ->
  Forall (fun t => exists v, encode1 (rm_parts r1) (dt_ic t) = Ok (V v)) tests ->
  (forall q d, In q (points c) -> retrained LX factory (rm_model r1) q d -> predicts_discrete PR (rm_parts r1) tests p Es (inputs_for (length Es) Us) ntest d) ->
  let us := inputs_for (length Es) Us in
  (forall q d, In q (points c) -> retrained LX factory (rm_model r1) q d -> stable_discrete PR (rm_parts r1) tests margin p Es us ntest d -> forall e, ~ mean_error_discrete PR p Es us ntest d e) ->
    exists r', regselect_discrete LX PR bounded nm r c T ft fb factory only ntest margin tests = (r', Err RuntimeError).
Proof. exact discrete_none. Qed.
Print Assumptions C53_discrete_none.

(* C53, time-discrete: if some candidate is, the grid search succeeds. *)
Theorem C53_discrete_some :
  forall (LX : lsx) (PR : dpredict) (bounded : R -> R -> strat) (nm : list fnum -> strat) (r : rom) (c : cand_arg) (T : training) (ft : bool) (fb : option BasisModel.ext)
    (factory : param -> res sreg) (only : bool) (ntest : Z) (margin : R) (tests : list dtest) (Qs : list mat) (Us : option (list arr)) (n0 n p : nat) (ks : list nat) (r1 : rom) (Es : list mat),
  steps_well PR -> rm_cont r = false -> has_regularizer (rm_model r) = true -> trajectories_of T (map M Qs) None Us -> (0 <= ntest)%Z ->
  dinputs_ok ntest (map M Qs) Us = Ok tt -> well_shaped c -> blocks n0 ks Qs -> Forall (lt 1) ks -> Qs <> [] -> 0 < n0 -> 0 < p ->
  rom_fit_with (fit_solver LX) r (Several (map M Qs) None Us) ft fb = (r1, Ok (map M Es)) -> trained_parts n p (rm_parts r1) -> columnwise_lifter n0 n (rp_lift (rm_parts r1)) ->
  Forall (fun t => exists v, encode1 (rm_parts r1) (dt_ic t) = Ok (V v)) tests ->
  (forall q d, In q (points c) -> retrained LX factory (rm_model r1) q d -> predicts_discrete PR (rm_parts r1) tests p Es (inputs_for (length Es) Us) ntest d) ->
  let us := inputs_for (length Es) Us in
  only = true -> (exists q d e, In q (points c) /\ retrained LX factory (rm_model r1) q d /\ stable_discrete PR (rm_parts r1) tests margin p Es us ntest d /\ mean_error_discrete PR p Es us ntest d e) ->
    exists r', regselect_discrete LX PR bounded nm r c T ft fb factory only ntest margin tests = (r', Ok tt).
Proof. exact discrete_some. Qed.
Print Assumptions C53_discrete_some.

(* C53: arguments that are refused before anything is changed. *)
Theorem C53_discrete_refuses :
  forall LX PR bounded nm r c T ft fb factory only ntest margin tests,
  let run := regselect_discrete LX PR bounded nm r c T ft fb factory only ntest margin tests in
  (rm_cont r = true -> run = (r, Err AttributeError)) /\
  (rm_cont r = false -> has_regularizer (rm_model r) = false -> run = (r, Err AttributeError)) /\
  (forall Qs Zs Us, rm_cont r = false -> has_regularizer (rm_model r) = true -> fix_single T = Ok (Qs, Zs, Us) ->
     ((ntest < 0)%Z -> run = (r, Err ValueError)) /\
     (forall us, (0 <= ntest)%Z -> Us = Some us -> length us <> length Qs -> run = (r, Err DimensionalityError)) /\
     (forall us i, (0 <= ntest)%Z -> Us = Some us -> length us = length Qs -> i < length Qs ->
        (Z.of_nat (width_of (nth i us (V []))) < Z.of_nat (width_of (nth i Qs (V []))) + ntest)%Z -> run = (r, Err ValueError))).
Proof. exact discrete_refuses. Qed.
Print Assumptions C53_discrete_refuses.

(* C53: the installed model solves the least-squares problem of the first fit, with the regularization that was chosen. *)
Theorem C53_installed_is_best_fit :
  forall LX factory d states lhs inputs d1 q d',
  lsx_ok LX -> reach LX d -> m_frozen d = false -> m_intrusive d = false -> good_arr states -> good_arr lhs -> valid_in inputs ->
  fit_solver LX d states lhs inputs = (d1, Ok tt) -> (forall g, factory q = Ok g -> valid_reg g) -> retrained LX factory d1 q d' ->
  exists g s1 s, factory q = Ok g /\ m_solver d1 = Some s1 /\ lsq_setreg s1 g = (s, Ok tt) /\ best LX d' s states lhs inputs.
Proof. exact retrained_best. Qed.
Print Assumptions C53_installed_is_best_fit.

(* C53, time-continuous: the same for fit_regselect_continuous, where a model is accepted if its solution reaches the end of the horizon and is not seen to leave the margin. *)
Theorem C53_continuous_best :
  forall LX PR bounded nm r c ts Qs Zs us ft fb factory only len margin tests r' n0 n p ks,
  solves_well PR -> (forall a b, honest [] (bounded a b)) -> (forall x, honest [] (nm x)) ->
  same_length (map M Qs) Zs -> length ts = length Qs -> (forall l, us = Some l -> length l = length Qs) -> Forall in_order ts ->
  blocks n0 ks Qs -> Forall (lt 0) ks -> 0 < n0 -> 0 < p -> trained_parts n p (rm_parts r') -> columnwise_lifter n0 n (rp_lift (rm_parts r')) ->
  Forall (fun t => exists v, ct_ic t = V v /\ length v = n0) tests ->
  regselect_continuous LX PR bounded nm r c ts (map M Qs) Zs us ft fb factory only len margin tests = (r', Ok tt) ->
  exists r1 Us es cs q e, sampled us ts Us /\ prepared LX r r1 ft fb (map M Qs) Zs Us es /\ rm_parts r' = rm_parts r1 /\ rm_ddt r' = rm_ddt r1 /\
    ctrajs (rm_parts r') us len ts Qs cs /\
    retrained LX factory (rm_model r1) q (rm_model r') /\
    not_seen_unstable PR (rm_parts r') tests margin p cs (rm_model r') /\
    mean_error_continuous PR p cs (length Qs) (rm_model r') e /\
    forall q' d' e', In q' (points c) -> retrained LX factory (rm_model r1) q' d' -> not_seen_unstable PR (rm_parts r') tests margin p cs d' ->
      mean_error_continuous PR p cs (length Qs) d' e' -> (e <= e')%R.
Proof. exact continuous_best. Qed.
Print Assumptions C53_continuous_best.

(* C53, time-continuous: if no candidate is accepted, RuntimeError is raised. *)
Theorem C53_continuous_none :
  forall (LX : lsx) (PR : cpredict) (bounded : R -> R -> strat) (nm : list fnum -> strat) (r : rom) (c : cand_arg) (ts : list vec) (Qs : list mat) (Zs : option (list arr)) (us : option (list infun))
    (ft : bool) (fb : option BasisModel.ext) (factory : param -> res sreg) (only : bool) (len margin : R) (tests : list ctest) (n0 n p : nat) (ks : list nat) (Us : option (list arr)) (r1 : rom) (es : list arr) (cs : list ctraj),
  solves_well PR -> rm_cont r = true -> has_regularizer (rm_model r) = true -> same_length (map M Qs) Zs -> (0 <= len)%R -> Qs <> [] ->
  Forall2 (fun k t => length t = k) ks ts -> Forall in_order ts -> (forall l, us = Some l -> length l = length Qs) -> well_shaped c -> blocks n0 ks Qs -> Forall (lt 0) ks -> 0 < n0 -> 0 < p ->
  sample_all us ts = Ok Us ->
  rom_fit_with (fit_solver LX) r (Several (map M Qs) Zs Us) ft fb = (r1, Ok es) -> trained_parts n p (rm_parts r1) -> columnwise_lifter n0 n (rp_lift (rm_parts r1)) ->
  Forall (fun t => exists v, ct_ic t = V v /\ length v = n0) tests -> Forall (fun t => exists v, encode1 (rm_parts r1) (ct_ic t) = Ok (V v)) tests ->
  ctrajs (rm_parts r1) us len ts Qs cs ->
  (forall q d, In q (points c) -> retrained LX factory (rm_model r1) q d -> predicts_continuous PR (rm_parts r1) tests p cs d) ->
  (forall q d, In q (points c) -> retrained LX factory (rm_model r1) q d -> not_seen_unstable PR (rm_parts r1) tests margin p cs d -> forall e, ~ mean_error_continuous PR p cs (length Qs) d e) ->
    exists r', regselect_continuous LX PR bounded nm r c ts (map M Qs) Zs us ft fb factory only len margin tests = (r', Err RuntimeError).
Proof. exact continuous_none. Qed.
Print Assumptions C53_continuous_none.

(* C53, time-continuous: if some candidate is, the grid search succeeds. *)
Theorem C53_continuous_some :
  forall (LX : lsx) (PR : cpredict) (bounded : R -> R -> strat) (nm : list fnum -> strat) (r : rom) (c : cand_arg) (ts : list vec) (Qs : list mat) (Zs : option (list arr)) (us : option (list infun))
    (ft : bool) (fb : option BasisModel.ext) (factory : param -> res sreg) (only : bool) (len margin : R) (tests : list ctest) (n0 n p : nat) (ks : list nat) (Us : option (list arr)) (r1 : rom) (es : list arr) (cs : list ctraj),
  solves_well PR -> rm_cont r = true -> has_regularizer (rm_model r) = true -> same_length (map M Qs) Zs -> (0 <= len)%R -> Qs <> [] ->
  Forall2 (fun k t => length t = k) ks ts -> Forall in_order ts -> (forall l, us = Some l -> length l = length Qs) -> well_shaped c -> blocks n0 ks Qs -> Forall (lt 0) ks -> 0 < n0 -> 0 < p ->
  sample_all us ts = Ok Us ->
  rom_fit_with (fit_solver LX) r (Several (map M Qs) Zs Us) ft fb = (r1, Ok es) -> trained_parts n p (rm_parts r1) -> columnwise_lifter n0 n (rp_lift (rm_parts r1)) ->
  Forall (fun t => exists v, ct_ic t = V v /\ length v = n0) tests -> Forall (fun t => exists v, encode1 (rm_parts r1) (ct_ic t) = Ok (V v)) tests ->
  ctrajs (rm_parts r1) us len ts Qs cs ->
  (forall q d, In q (points c) -> retrained LX factory (rm_model r1) q d -> predicts_continuous PR (rm_parts r1) tests p cs d) ->
  only = true -> (exists q d e, In q (points c) /\ retrained LX factory (rm_model r1) q d /\ not_seen_unstable PR (rm_parts r1) tests margin p cs d /\ mean_error_continuous PR p cs (length Qs) d e) ->
    exists r', regselect_continuous LX PR bounded nm r c ts (map M Qs) Zs us ft fb factory only len margin tests = (r', Ok tt).
Proof. exact continuous_some. Qed.
Print Assumptions C53_continuous_some.

(* C53: an accepted model is stable if its solutions have no nan and no trajectory is constant. *)
Theorem C53_accepted_is_stable :
  forall PR P tests margin n cs d,
  not_seen_unstable PR P tests margin n cs d ->
  Forall (fun c => (exists m, is_spread n (ncols (cj_data c)) (cj_data c) m /\ (margin * m <> 0)%R) /\ forall s, continues_continuous PR d n c s -> ~ has_nan s) cs -> stable_continuous PR P tests margin n cs d.
Proof. exact seen_stable. Qed.
Print Assumptions C53_accepted_is_stable.

(* C53: a stable model is accepted. *)
Theorem C53_stable_is_accepted :
  forall PR P tests margin n cs d,
  stable_continuous PR P tests margin n cs d -> not_seen_unstable PR P tests margin n cs d.
Proof. exact stable_seen. Qed.
Print Assumptions C53_stable_is_accepted.

(* C53: arguments that are refused before anything is changed. *)
Theorem C53_continuous_refuses :
  forall LX PR bounded nm r c ts Qs Zs us ft fb factory only len margin tests,
  let run := regselect_continuous LX PR bounded nm r c ts (map M Qs) Zs us ft fb factory only len margin tests in
  (rm_cont r = false -> run = (r, Err AttributeError)) /\
  (rm_cont r = true -> has_regularizer (rm_model r) = false -> run = (r, Err AttributeError)) /\
  (rm_cont r = true -> has_regularizer (rm_model r) = true -> Qs <> [] ->
     (forall i t Q, nth_error ts i = Some t -> nth_error Qs i = Some Q -> length t <> ncols Q -> run = (r, Err DimensionalityError)) /\
     (us = None -> ts <> [] -> (forall i t Q, nth_error ts i = Some t -> nth_error Qs i = Some Q -> length t = ncols Q) -> (len < 0)%R -> run = (r, Err ValueError))).
Proof. exact continuous_refuses. Qed.
Print Assumptions C53_continuous_refuses.

(* C53: the times of the test horizon start at the training times and reach the end of the horizon, if it is two mean steps or longer. *)
Theorem C53_test_times :
  forall len t td,
  (0 < len)%R -> extend_times len t = Ok td ->
  let dt := ((last t 0 - hd 0 t) / INR (length t - 1))%R in
  2 <= length t /\ (0 < dt)%R /\ exists extra, td = t ++ extra /\ length extra = Z.to_nat (Int_part (len / dt)) /\
    (forall x, In x extra -> (last t 0 + dt <= x <= last t 0 + dt + len)%R) /\
    (forall i j, i < j -> j < length extra -> (vget extra i < vget extra j)%R) /\
    ((2 * dt <= len)%R -> last td 0%R = (last t 0 + dt + len)%R).
Proof. exact test_times. Qed.
Print Assumptions C53_test_times.

(* C53, false for short horizons: the times stop before the end of the horizon, or there are no test times at all. *)
Theorem C53_short_horizon_refuted :
  exists len t td td', (0 < len)%R /\ strictly_ordered t /\ extend_times len t = Ok td /\ (last td 0 < last t 0 + len)%R /\ extend_times (len / 3) t = Ok td' /\ td' = t.
Proof. exact short_test. Qed.
Print Assumptions C53_short_horizon_refuted.

(* C53, false for time-continuous models whose solution is nan in the test horizon: they are installed. *)
Theorem C53_nan_refuted :
  exists LX PR b nmd r c t Q Z fac' len r' s, lsx_ok LX /\ solves_well PR /\ (forall x y, honest [] (b x y)) /\ (forall x, honest [] (nmd x)) /\ strictly_ordered t /\ (0 < len)%R /\
  regselect_continuous LX PR b nmd r c [t] [M Q] (Some [M Z]) None false None fac' true len 5 [] = (r', Ok tt) /\
  exists td, extend_times len t = Ok td /\ PR (rm_model r') (V (colv 1 Q 0)) td None = Ok s /\ has_nan s.
Proof. exact nan_accepted. Qed.
Print Assumptions C53_nan_refuted.

(* C53, false for data that are zero in reduced coordinates: every candidate reproduces them and is stable, and RuntimeError is raised. *)
Theorem C53_zero_data_refuted :
  exists LX PR b nmd r c T fac' Qs r1 Es r', lsx_ok LX /\ steps_well PR /\ (forall x y, honest [] (b x y)) /\ (forall x, honest [] (nmd x)) /\
  trajectories_of T (map M Qs) None None /\ rom_fit_with (fit_solver LX) r (Several (map M Qs) None None) false None = (r1, Ok (map M Es)) /\
  (forall q, In q (points c) -> exists d, retrained LX fac' (rm_model r1) q d /\ stable_discrete PR (rm_parts r1) [] 5 1 Es [None] 1 d /\
     Forall (fun E => exists Y, continues_discrete PR d 1 E None 1 (map (map F) Y) /\ forall j, j < ncols E -> mget Y 0 j = mget E 0 j) Es) /\
  regselect_discrete LX PR b nmd r c T false None fac' true 1 5 [] = (r', Err RuntimeError).
Proof. exact zero_fails. Qed.
Print Assumptions C53_zero_data_refuted.

(* ---- the hypotheses can be met ---- *)
(* a search with a test case, one trajectory and two candidates, of which one is unstable *)
Example search_succeeds : exists r', regselect_discrete X2 pr_exact bd nm (rL KDiscrete) (CNums [5; 10]%R) (Single [[3; 4; 19 / 2]]%R None None) false None fac true 1 5 [tc] = (r', Ok tt) /\
  lsx_ok X2 /\ steps_well pr_exact /\ (forall a b, honest [] (bd a b)) /\ (forall x, honest [] (nm x)) /\
  trajectories_of (Single [[3; 4; 19 / 2]]%R None None) (map M [[[3; 4; 19 / 2]]%R]) None None /\ blocks 1 [3] [[[3; 4; 19 / 2]]%R] /\ trained_parts 1 1 noP /\ columnwise_lifter 1 1 (rp_lift noP).
Proof. destruct search_ex as [r' E]. exists r'. split; [exact E|]. split; [exact X2_ok|]. split; [exact pr_exact_steps|]. split; [cbn; auto|]. split; [cbn; auto|]. split; [repeat split|]. split; [repeat constructor|]. split; [exact noP_trained|reflexivity]. Qed.
Example one_stable_one_not : stable_discrete pr_exact noP [tc] 5 1 [E34] [None] 1 (m50 5) /\ ~ stable_discrete pr_exact noP [tc] 5 1 [E34] [None] 1 (m50 10) /\
  (forall g, (0 < g)%R -> retrained X2 fac (rm_model (rL2 KDiscrete pre2)) (SpecGrid.PS (F g)) (m50 g)) /\ exists e, mean_error_discrete pr_exact 1 [E34] [None] 1 (m50 5) e.
Proof. split; [exact stable5|]. split; [exact unstable10|]. split; [intros g Hg; apply refit2; auto|exact error5]. Qed.
Example first_fit : rom_fit_with (fit_solver X2) (rL KDiscrete) (Several (map M [[[3; 4; 19 / 2]]%R]) None None) false None = (rL2 KDiscrete pre2, Ok (map M [E34])) /\ reach X2 (RegselEx.blank KDiscrete) /\
  forall q d, In q (points (CNums [5; 10]%R)) -> retrained X2 fac (rm_model (rL2 KDiscrete pre2)) q d -> predicts_discrete pr_exact noP [tc] 1 [E34] [None] 1 d.
Proof. split; [exact rL_fit|]. split; [apply RegselEx.blank_reach|exact predicts_ex]. Qed.
(* only the unstable candidate: the search raises *)
Example search_fails : exists r', regselect_discrete X2 pr_exact bd nm (rL KDiscrete) (CNums [10]%R) (Single [[3; 4; 19 / 2]]%R None None) false None fac true 1 5 [tc] = (r', Err RuntimeError).
Proof. eapply (C53_discrete_none X2 pr_exact bd nm (rL KDiscrete) (CNums [10]%R) (Single [[3; 4; 19 / 2]]%R None None) false None fac true 1 5 [tc] [[[3; 4; 19 / 2]]%R] None 1 1 1 [3] (rL2 KDiscrete pre2) [E34]);
    [exact pr_exact_steps|reflexivity|reflexivity|repeat split|lia|reflexivity|split; [discriminate|exact I]|repeat constructor|repeat constructor|discriminate|lia|lia|exact rL_fit|exact noP_trained|reflexivity| | | ].
  - constructor; [|constructor]. exists [1]%R. reflexivity.
  - intros q d [<-|[]] Hr. apply (predicts_ex (SpecGrid.PS (F 10))); [right; left; reflexivity|exact Hr].
  - intros q d [<-|[]] Hr Hs. rewrite (retrained_fun _ _ _ _ _ _ Hr (refit2 KDiscrete 10 ltac:(lra))) in Hs. destruct (unstable10 Hs). Qed.
(* a time-continuous search *)
Example search_continuous : exists r', regselect_continuous X2 pr_nan bd nm (rL KContinuous) (CNums [5; 10]%R) [[0; 1]%R] (map M [E34]) (Some (map M [[[4; 19 / 2]]%R])) None false None fac true 2 5 [] = (r', Ok tt) /\
  solves_well pr_nan /\ in_order [0; 1]%R /\ ctrajs noP None 2 [[0; 1]%R] [E34] [cj] /\ blocks 1 [2] [E34].
Proof. destruct search_c as [r' E]. exists r'. split; [exact E|]. split; [exact pr_nan_solves|]. split; [exact order01|]. split; [exact trajs_nan|repeat constructor]. Qed.
Example horizon : extend_times 2 [0; 1]%R = Ok [0; 1; 2; 4]%R. Proof. exact times01. Qed.
(* a time-continuous model that is stable *)
Definition pr_line : cpredict := fun _ q t _ => match q with V [x] => Ok [map (fun s => F (x + s / 4)) t] | _ => Err DimensionalityError end.
Example stable_line d : stable_continuous pr_line noP [] 5 1 [cj] d /\ (exists m, is_spread 1 2 E34 m /\ (5 * m <> 0)%R) /\ forall s, continues_continuous pr_line d 1 cj s -> ~ has_nan s.
Proof. assert (E : pr_line d (V (colv 1 (cj_data cj) 0)) (cj_times cj) (cj_input cj) = Ok [[F (3 + 0 / 4); F (3 + 1 / 4); F (3 + 2 / 4); F (3 + 4 / 4)]]) by reflexivity. split; [|split].
  - split; [constructor|]. constructor; [|constructor]. eexists. split; [split; [exact E|repeat constructor]|]. intros [|i] j Hi Hj; [|lia]. change (length (cj_times cj)) with 4 in Hj. change (ncols (cj_data cj)) with 2.
    destruct j as [|[|[|[|j]]]]; [| | | |lia]; (eexists; split; [reflexivity|]); intros m Hm _; rewrite (spread34 m Hm); change (cj_data cj) with E34; rewrite mean34; apply abs_le; lra.
  - exists (1 / 2)%R. split; [exact is34|lra].
  - intros s [Es _] (i & j & Hf & Hi & Hj). rewrite E in Es. injection Es as <-. destruct i as [|i]; [|cbn in Hi; lia]. destruct j as [|[|[|[|j]]]]; cbn in Hf, Hj; try discriminate; lia. Qed.

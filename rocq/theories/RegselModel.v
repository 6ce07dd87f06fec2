(* RegselModel.v -- roms/_base.py: fit_regselect_continuous, fit_regselect_discrete for ROMs without parameters, and
   _RegTest.evaluate of utils/_gridsearch.py.  The predict method of the model is arbitrary: its results are
   floating-point numbers, which may overflow.  Printing and warnings are not modelled.  No proofs here. *)
From Coq Require Import ZArith Reals.
From Verif Require Export RomModel GridModel PostModel SpecRom.
#[local] Open Scope nat_scope.

(* a prediction: rows of floating-point numbers *)
Definition sol := list (list fnum).
Definition real_of (x : fnum) : option R := match x with F x => Some x | _ => None end.
Fixpoint all_some {A} (l : list (option A)) : option (list A) :=
  match l with [] => Some [] | x :: t => match x, all_some t with Some a, Some t' => Some (a :: t') | _, _ => None end end.
Definition reals (s : sol) : option mat := all_some (map (fun row => all_some (map real_of row)) s).

(* ---- _get_stability_limits: _base.py:459-473.  A limit of zero becomes infinite (None).  np.mean of nothing is nan, and
   np.max of nothing raises. ---- *)
Definition shifts_of (Q : mat) : vec := map vmean Q.
Definition limit_of (margin : R) (Q : mat) : res (option R) :=
  do m <- PreModel.vmax (concat (map2 (fun row c => map (fun x => Rabs (x - c)) row) Q (shifts_of Q)));
  Ok (if Req_EM_T (margin * m) 0 then None else Some (margin * m)%R).

(* unstable(_Q, ell) of the discrete version: _base.py:917-921 *)
Definition beyond (lim : option R) (c : R) (x : fnum) : bool := match lim with None => false | Some b => exceeds b c x end.
Definition sel_unstable_discrete (Q : mat) (lim : option R) (s : sol) : bool :=
  if existsb (existsb not_finite) s then true
  else existsb (fun cr => existsb (beyond lim (fst cr)) (snd cr)) (combine (shifts_of Q) s).
(* unstable(_Q, ell, size) of the continuous version: _base.py:695-699.  If an entry is nan, so is the maximum, and the
   comparison is false. *)
Definition is_nan (x : fnum) : bool := match x with SpecLift.NaN => true | _ => false end.
Definition sel_unstable_continuous (nt : nat) (Q : mat) (lim : option R) (s : sol) : bool :=
  if negb (length (hd [] s) =? nt) then true
  else if existsb (existsb is_nan) s then false
  else existsb (fun cr => existsb (beyond lim (fst cr)) (snd cr)) (combine (shifts_of Q) s).

(* the relative error of one trajectory: _base.py:975 and 764-767.  An error that is nan or infinite, because an entry is
   or because the data are zero, is NaN here: infinities and nan are equally infeasible. *)
Definition finite_or_nan (x : option R) : fnum := match x with Some x => F x | None => SpecLift.NaN end.
Definition error_discrete (Q : mat) (s : sol) : res fnum :=
  match reals (map (firstn (ncols Q)) s) with
  | None => Ok SpecLift.NaN
  | Some S' => do e <- frobenius_error (M Q) (M S'); Ok (finite_or_nan (snd e))
  end.
Definition error_continuous (t : vec) (Q : mat) (s : sol) : res fnum :=
  match reals (map (firstn (ncols Q)) s) with
  | None => Ok SpecLift.NaN
  | Some S' => do e <- Lp_error (M Q) (M S') (Times (firstn (ncols Q) t)) (SpecPost.Fin 2); Ok (finite_or_nan (snd e))
  end.
Definition fadd (a b : fnum) : fnum := match a, b with F x, F y => F (x + y)%R | _, _ => SpecLift.NaN end.
Definition fdivn (a : fnum) (n : nat) : fnum := match a with F x => F (x / INR n)%R | _ => SpecLift.NaN end.

Section Select.
  Context {St : Type}.
  Variable update : St -> param -> St * res unit.     (* update_model(reg_params): _base.py:721-729, 934-942 *)
  (* one training trajectory: what the model predicts for it, whether that is unstable, and its error *)
  Record sel_case := { sc_predict : St -> res sol; sc_unstable : sol -> bool; sc_error : sol -> res fnum }.
  (* one test case: _gridsearch.py:200-219 *)
  Record sel_test := { st_predict : St -> res sol; st_unstable : sol -> bool }.
  Definition evaluate (d : St) (c : sel_test) : res bool := do s <- st_predict c d; Ok (negb (st_unstable c s)).
  (* the test cases in turn: _base.py:744-746, 957-959 *)
  Fixpoint pass_tests (d : St) (l : list sel_test) : res bool :=
    match l with [] => Ok true | c :: l' => do b <- evaluate d c; if b then pass_tests d l' else Ok false end.
  (* the trajectories in turn: _base.py:749-767, 962-975; None says unstable *)
  Fixpoint sum_errors (d : St) (l : list sel_case) (e : fnum) : res (option fnum) :=
    match l with
    | [] => Ok (Some e)
    | c :: l' => do s <- sc_predict c d; if sc_unstable c s then Ok None else do x <- sc_error c s; sum_errors d l' (fadd e x)
    end.
  Definition score (tests : list sel_test) (cases : list sel_case) (n : nat) (d : St) : res fnum :=
    do b <- pass_tests d tests;
    if b then do e <- sum_errors d cases (F 0); Ok (match e with None => PInf | Some e => fdivn e n end) else Ok PInf.
  (* training_error(reg_params): _base.py:731-768, 944-976 *)
  Definition training_error (tests : list sel_test) (cases : list sel_case) (n : nat) (d : St) (p : param) : St * res fnum :=
    match update d p with
    | (d', Err _) => (d', Ok PInf)
    | (d', Ok _) => (d', score tests cases n d')
    end.
  (* the search and the final update: _base.py:770-779, 978-987 *)
  Definition select (bounded : R -> R -> strat) (nelder_mead : list fnum -> strat) (only : bool) (c : cand_arg)
      (tests : list sel_test) (cases : list sel_case) (n : nat) (d : St) : St * res unit :=
    match gridsearch (training_error tests cases n) bounded nelder_mead only c d with
    | (d', Err e) => (d', Err e)
    | (d', Ok p) => update d' p
    end.
End Select.
Arguments sel_case : clear implicits.
Arguments sel_test : clear implicits.

(* ---- the model's part -------------------------------------------------------------------------------------------------- *)
(* hasattr(model.solver, "regularizer") *)
Definition has_regularizer (d : model) : bool :=
  match m_solver d with Some (LL2 _) | Some (LL2D _) | Some (LTik _) | Some (LTikD _) => true | _ => false end.
(* solver.regularizer = reg; a value of another kind than the setter knows raises *)
Definition reg_fits (s : lsq) (g : sreg) : bool :=
  match s, g with LL2 _, GL2 _ | LL2D _, GL2 _ | LTik _, GTik _ | LTikD _, GTikD _ => true | _, _ => false end.
(* update_model(reg_params) for a model that is not interpolatory; factory is regularizer_factory *)
Definition model_update (LX : lsx) (factory : param -> res sreg) (d : model) (p : param) : model * res unit :=
  match factory p with
  | Err e => (d, Err e)
  | Ok g => match m_solver d with
            | None => (d, Err AttributeError)
            | Some s => if negb (reg_fits s g) then (d, Err TypeError)
                        else seqm (set_regularizer g d) (fun d _ => refit LX d)
            end
  end.

(* ---- fit_regselect_discrete: _base.py:781-987 ------------------------------------------------------------------------------ *)
Definition dpredict := model -> arr -> Z -> option inputarg -> res sol.
Record dtest := { dt_ic : arr; dt_iters : Z; dt_inputs : option inputarg; dt_bound : option R }.
(* _process_test_cases: _base.py:442-457; the bound is checked around the encoded initial conditions *)
Definition process_dtest (PR : dpredict) (P : parts) (c : dtest) : res (sel_test model) :=
  do e <- encode1 P (dt_ic c);
  match e with
  | V v => Ok {| st_predict := fun d => PR d (V v) (dt_iters c) (dt_inputs c); st_unstable := discrete_unstable v (dt_bound c) |}
  | M _ => Err ValueError
  end.
(* the arguments of the prediction of one trajectory: Q[:, 0], niter, U *)
Definition dcase (PR : dpredict) (margin : R) (tests : Z) (Q : mat) (u : option inputarg) : res (sel_case model) :=
  do lim <- limit_of margin Q;
  Ok {| sc_predict := fun d => PR d (V (colv (nrows Q) Q 0)) (Z.of_nat (ncols Q) + tests)%Z u;
        sc_unstable := sel_unstable_discrete Q lim; sc_error := error_discrete Q |}.
Definition as_mat_r (a : arr) : res mat := match a with M Q => Ok Q | V _ => Err IndexError end.
(* [None] * len(states_), or the inputs *)
Definition inputs_for (n : nat) (Us : option (list arr)) : list (option inputarg) :=
  match Us with None => repeat None n | Some us => map (fun u => Some (UArr u)) us end.
(* the checks of the inputs: _base.py:880-891 *)
Definition dinputs_ok (tests : Z) (Qs : list arr) (Us : option (list arr)) : res unit :=
  match Us with
  | None => Ok tt
  | Some us => if negb (length us =? length Qs) then Err DimensionalityError
               else guard (existsb (fun Qu => Z.ltb (Z.of_nat (width_of (snd Qu))) (Z.of_nat (width_of (fst Qu)) + tests)) (combine Qs us)) ValueError
  end.
Definition regselect_discrete (LX : lsx) (PR : dpredict) (bounded : R -> R -> strat) (nelder_mead : list fnum -> strat)
    (r : rom) (c : cand_arg) (T : training) (ft : bool) (fb : option BasisModel.ext) (factory : param -> res sreg)
    (only : bool) (num_test_iters : Z) (margin : R) (tests : list dtest) : rom * res unit :=
  if rm_cont r then (r, Err AttributeError)
  else if negb (has_regularizer (rm_model r)) then (r, Err AttributeError)
  else
    match fix_single T with
    | Err e => (r, Err e)
    | Ok (Qs, _, Us) =>
        match (raise_if (num_test_iters <? 0)%Z with ValueError;; dinputs_ok num_test_iters Qs Us) with
        | Err e => (r, Err e)
        | Ok _ =>
            match rom_fit_with (fit_solver LX) r (Several Qs None Us) ft fb with
            | (r', Err e) => (r', Err e)
            | (r', Ok es) =>
                let with_model d := {| rm_parts := rm_parts r'; rm_ddt := rm_ddt r'; rm_model := d |} in
                match (do Es <- mapM as_mat_r es;
                       do cases <- mapM (fun Qu => dcase PR margin num_test_iters (fst Qu) (snd Qu)) (combine Es (inputs_for (length Es) Us));
                       do ts <- mapM (process_dtest PR (rm_parts r')) tests;
                       Ok (ts, cases)) with
                | Err e => (r', Err e)
                | Ok (ts, cases) =>
                    let '(d, x) := select (model_update LX factory) bounded nelder_mead only c ts cases (length es) (rm_model r') in (with_model d, x)
                end
            end
        end
    end.

(* ---- fit_regselect_continuous: _base.py:525-779 ---------------------------------------------------------------------------- *)
(* input functions of time *)
Definition infun := R -> vec.
Definition cpredict := model -> arr -> vec -> option infun -> res sol.
Record ctest := { ct_ic : arr; ct_times : vec; ct_inputs : option infun; ct_bound : option R }.
Definition process_ctest (PR : cpredict) (P : parts) (c : ctest) : res (sel_test model) :=
  do e <- encode1 P (ct_ic c);
  match e with
  | V v => Ok {| st_predict := fun d => PR d (V v) (ct_times c) (ct_inputs c); st_unstable := continuous_unstable (length (ct_times c)) v (ct_bound c) |}
  | M _ => Err ValueError
  end.
(* np.linspace(a, b, n) *)
Definition linspace (a b : R) (n : nat) : vec :=
  match n with 0 => [] | 1 => [a] | _ => map (fun i => (a + INR i * ((b - a) / INR (n - 1)))%R) (seq 0 n) end.
(* the test times: _base.py:702-713.  int() truncates; a step that is not positive raises, and so does a single time. *)
Definition extend_times (len : R) (t : vec) : res vec :=
  if Rlt_dec 0 len then
    let k := length t in
    if k <? 2 then Err ValueError
    else
      let dt := (lsum (map2 Rminus (tl t) t) / INR (k - 1))%R in
      if Rle_dec dt 0 then Err ValueError
      else Ok (t ++ map (Rplus (last t 0%R)) (linspace dt (dt + len) (Z.to_nat (Int_part (len / dt)))))
  else Ok t.
Definition ccase (PR : cpredict) (margin : R) (Q : mat) (u : option infun) (t : vec) : res (sel_case model) :=
  do lim <- limit_of margin Q;
  Ok {| sc_predict := fun d => PR d (V (colv (nrows Q) Q 0)) t u;
        sc_unstable := sel_unstable_continuous (length t) Q lim; sc_error := error_continuous t Q |}.
(* np.column_stack([u(tt) for tt in t]) *)
Definition sample (u : infun) (t : vec) : res arr := match t with [] => Err ValueError | t0 :: _ => Ok (M (of_columns (length (u t0)) (map u t))) end.
(* ts is train_time_domains, one array for each trajectory; us is input_functions *)
Definition regselect_continuous (LX : lsx) (PR : cpredict) (bounded : R -> R -> strat) (nelder_mead : list fnum -> strat)
    (r : rom) (c : cand_arg) (ts : list vec) (Qs : list arr) (Zs : option (list arr)) (us : option (list infun)) (ft : bool) (fb : option BasisModel.ext)
    (factory : param -> res sreg) (only : bool) (test_time_length : R) (margin : R) (tests : list ctest) : rom * res unit :=
  if negb (rm_cont r) then (r, Err AttributeError)
  else if negb (has_regularizer (rm_model r)) then (r, Err AttributeError)
  else
    match (do q <- fix_single (Several Qs Zs None); do _ <- match ts with [] => Err IndexError | _ => Ok tt end;
           raise_if (existsb (fun tQ => negb (length (fst tQ) =? width_of (snd tQ))) (combine ts Qs)) with DimensionalityError;;
           do Us <- match us with None => Ok None | Some [] => Err IndexError | Some us => do l <- mapM (fun ut => sample (fst ut) (snd ut)) (combine us ts); Ok (Some l) end;
           raise_if (if Rlt_dec test_time_length 0 then true else false) with ValueError;; Ok Us) with
    | Err e => (r, Err e)
    | Ok Us =>
        match rom_fit_with (fit_solver LX) r (Several Qs Zs Us) ft fb with
        | (r', Err e) => (r', Err e)
        | (r', Ok _) =>
            let with_model d := {| rm_parts := rm_parts r'; rm_ddt := rm_ddt r'; rm_model := d |} in
            match (do es <- mapM (encode1 (rm_parts r')) Qs;
                   do Es <- mapM as_mat_r es;
                   do _ <- mapM (limit_of margin) Es;
                   do tests <- mapM (process_ctest PR (rm_parts r')) tests;
                   do tds <- mapM (extend_times test_time_length) ts;
                   do cases <- mapM (fun x => ccase PR margin (fst (fst x)) (snd (fst x)) (snd x))
                                (combine (combine Es (match us with None => repeat None (length Es) | Some us => map Some us end)) tds);
                   Ok (tests, cases)) with
            | Err e => (r', Err e)
            | Ok (tests, cases) =>
                let '(d, x) := select (model_update LX factory) bounded nelder_mead only c tests cases (length Qs) (rm_model r') in (with_model d, x)
            end
        end
    end.

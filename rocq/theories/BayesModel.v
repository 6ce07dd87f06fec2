(* BayesModel.v -- roms/_bayes.py: sampling an OperatorPosterior, and BayesianROM (fit, draw_operators, predict,
   fit_regselect_continuous, fit_regselect_discrete).  OperatorPosterior itself is in SaveModel.v.  The random number
   generator is arbitrary: `normal mean cov g` is a sample of the normal distribution and the next state of the
   generator.  The predict method of the model is arbitrary.  Printing and warnings are not modelled.  No proofs here. *)
From Coq Require Import ZArith Reals.
From Verif Require Export SaveModel RegselModel.
#[local] Open Scope nat_scope.

(* lstsq solvers with a posterior() method: _bayes.py:22-27 (VALID_SOLVERS) *)
Definition bayesian_solver (s : option lsq) : bool :=
  match s with Some (LL2 _) | Some (LL2D _) | Some (LTik _) | Some (LTikD _) => true | _ => false end.
(* solver.posterior() *)
Definition lsq_posterior (X : lsx) (s : lsq) : res (mat * list mat) :=
  match s with
  | LL2 p => l2_posterior p
  | LL2D p => ld_posterior p
  | LTik p => tk_posterior (x_lstsq X) (x_lsolve X) p
  | LTikD p => td_posterior (x_lstsq X) (x_lsolve X) p
  | _ => Err AttributeError
  end.
(* solver.reset(): lstsq/_base.py:290-292, _tikhonov.py:116-119.  What was computed from the data stays, but is not used. *)
Definition lsq_reset (s : lsq) : lsq :=
  match s with
  | LL2 _ => LL2 {| l2_reg := None; l2_pre := None |}
  | LL2D _ => LL2D {| ld_reg := None; ld_pre := None |}
  | LTik p => LTik {| tk_reg := None; tk_method := tk_method p; tk_opts := tk_opts p; tk_data := None; tk_pre := tk_pre p |}
  | LTikD p => LTikD {| td_reg := None; td_method := td_method p; td_data := None; td_pre := td_pre p |}
  | s => s
  end.

(* BayesianROM *)
Record brom := { br_rom : rom; br_post : option post }.
Definition with_post (p : option post) (b : brom) : brom := {| br_rom := br_rom b; br_post := p |}.
Definition rom_with (d : model) (r : rom) : rom := {| rm_parts := rm_parts r; rm_ddt := rm_ddt r; rm_model := d |}.
(* __init__: _bayes.py:601-618, 200-218 *)
Definition mk_brom (d : model) (lf : option lifter) (t : option tf) (b : option rbasis) (D : option ddter) : res brom :=
  if bayesian_solver (m_solver d) then Ok {| br_rom := mk_rom d lf t b D; br_post := None |} else Err AttributeError.

(* self.model, self.posterior, and the state of the random number generator *)
Record bstate (G : Type) := { bs_model : model; bs_post : option post; bs_gen : G }.
Arguments bs_model {G}. Arguments bs_post {G}. Arguments bs_gen {G}. Arguments Build_bstate {G}.

(* the posterior of the regularised problem the solver holds: _bayes.py:228-229 *)
Definition posterior_of (LX : lsx) (MX : mvn) (d : model) : res post :=
  match m_solver d with
  | None => Err AttributeError
  | Some s => do mp <- lsq_posterior LX s; post_init MX (fst mp) (snd mp) false
  end.
(* _initialize_posterior: _bayes.py:225-231.  The new posterior, or the exception that is not caught. *)
Definition initialize (LX : lsx) (MX : mvn) (d : model) : res (option post) :=
  match posterior_of LX MX d with
  | Ok p => Ok (Some p)
  | Err LinAlgError => Ok None
  | Err e => Err e
  end.
(* fit(): _bayes.py:620-637 *)
Definition bayes_fit (LX : lsx) (MX : mvn) (b : brom) (T : training) (ft : bool) (fb : option BasisModel.ext) : brom * res unit :=
  match rom_fit LX (br_rom b) T ft fb with
  | (r, Err e) => ({| br_rom := r; br_post := br_post b |}, Err e)
  | (r, Ok _) => match initialize LX MX (rm_model r) with
                 | Err e => ({| br_rom := r; br_post := br_post b |}, Err e)
                 | Ok p => ({| br_rom := r; br_post := p |}, Ok tt)
                 end
  end.

Section Random.
  Context {G : Type}.
  Variable normal : vec -> mat -> G -> G * vec.

  (* a sample of each row in turn *)
  Fixpoint draw_rows (l : list (vec * mat)) (g : G) : G * list vec :=
    match l with
    | [] => (g, [])
    | (v, C) :: t => let '(g1, x) := normal v C g in let '(g2, xs) := draw_rows t g1 in (g2, x :: xs)
    end.
  (* rvs(): _bayes.py:150-160.  rv.rvs() is 1 x d if the distribution was made from a precision matrix; otherwise scipy
     squeezes it, so that [0] is a number, and raises if d < 2.  The result is an array if all rows have the same length. *)
  Inductive drawn := DArray (A : mat) | DList (A : list vec) | DNumbers (same : bool) (x : vec).
  Definition same_sizes (l : list vec) : bool := match l with [] => true | v :: _ => forallb (fun w => length w =? length v) l end.
  Definition rvs (p : post) (g : G) : G * res drawn :=
    let '(g', xs) := draw_rows (combine (po_means p) (po_covs p)) g in
    (g', if po_prec p then Ok (if same_sizes (po_means p) then DArray xs else DList xs)
         else if existsb (fun v => length v <? 2) (po_means p) then Err IndexError
         else Ok (DNumbers (same_sizes (po_means p)) (map (fun x => nth 0 x 0%R) xs))).
  (* model._extract_operators(draw): models/mono/_nonparametric.py:221-236.  Neither a list nor a one-dimensional array can be
     indexed by a pair. *)
  Definition extract_drawn (d : model) (x : drawn) : model * res unit :=
    match x with
    | DArray A => let '(l, y) := extract (m_r d) (m_m d) A 0 (m_infer d) (m_ops d) in (with_ops l d, y)
    | DList _ => (d, match m_infer d with [] => Ok tt | _ => Err TypeError end)
    | DNumbers same _ => (d, match m_infer d with [] => Ok tt | _ => Err (if same then IndexError else TypeError) end)
    end.
  (* draw_operators(): _bayes.py:233-237; without a posterior, None has no attribute rvs *)
  Definition draw (s : bstate G) : bstate G * res unit :=
    match bs_post s with
    | None => (s, Err AttributeError)
    | Some p => match rvs p (bs_gen s) with
                | (g, Err e) => (Build_bstate (bs_model s) (bs_post s) g, Err e)
                | (g, Ok x) => let '(d, y) := extract_drawn (bs_model s) x in (Build_bstate d (bs_post s) g, y)
                end
    end.
  Definition bstate_of (b : brom) (g : G) : bstate G := Build_bstate (rm_model (br_rom b)) (br_post b) g.
  Definition brom_of (b : brom) (s : bstate G) : brom := {| br_rom := rom_with (bs_model s) (br_rom b); br_post := bs_post s |}.
  Definition draw_operators (b : brom) (g : G) : brom * G * res unit :=
    let '(s, x) := draw (bstate_of b g) in (brom_of b s, bs_gen s, x).
  (* predict(state0, *args): _bayes.py:850-871, for any predict method of the model *)
  Definition bayes_predict (pred : model -> arr -> res arr) (b : brom) (g : G) (q0 : arr) : brom * G * res arr :=
    match draw_operators b g with
    | (b', g', Err e) => (b', g', Err e)
    | (b', g', Ok _) => (b', g', rom_predict_with (pred (rm_model (br_rom b'))) (rm_parts (br_rom b')) q0)
    end.

  (* ---- the selection of the regularization ---- *)
  (* update_model(reg_params): _bayes.py:341-346, 483-488 *)
  Definition bupdate (LX : lsx) (MX : mvn) (factory : param -> res sreg) (s : bstate G) (p : param) : bstate G * res unit :=
    match factory p with
    | Err e => (s, Err e)
    | Ok g => match m_solver (bs_model s) with
              | None => (s, Err AttributeError)
              | Some z =>
                  if bayesian_solver (Some z) && negb (reg_fits z g) then (s, Err TypeError)
                  else match set_regularizer g (bs_model s) with
                       | (d, Err e) => (Build_bstate d (bs_post s) (bs_gen s), Err e)
                       | (d, Ok _) => match initialize LX MX d with
                                      | Err e => (Build_bstate d (bs_post s) (bs_gen s), Err e)
                                      | Ok q => (Build_bstate d q (bs_gen s), Ok tt)
                                      end
                       end
              end
    end.
  (* num_posterior_draws draws, each followed by the test: _bayes.py:358-362, 500-504 *)
  Fixpoint test_draws (n : nat) (c : sel_test model) (s : bstate G) : bstate G * res bool :=
    match n with
    | 0 => (s, Ok true)
    | S n' => match draw s with
              | (s', Err e) => (s', Err e)
              | (s', Ok _) => match evaluate (bs_model s') c with
                              | Err e => (s', Err e)
                              | Ok false => (s', Ok false)
                              | Ok true => test_draws n' c s'
                              end
              end
    end.
  Fixpoint test_all (n : nat) (l : list (sel_test model)) (s : bstate G) : bstate G * res bool :=
    match l with
    | [] => (s, Ok true)
    | c :: l' => match test_draws n c s with (s', Ok true) => test_all n l' s' | z => z end
    end.
  (* num_posterior_draws draws, each followed by a prediction; None says unstable: _bayes.py:375-384, 516-523 *)
  Fixpoint case_draws (n : nat) (c : sel_case model) (s : bstate G) : bstate G * res (option (list sol)) :=
    match n with
    | 0 => (s, Ok (Some []))
    | S n' => match draw s with
              | (s', Err e) => (s', Err e)
              | (s', Ok _) => match sc_predict c (bs_model s') with
                              | Err e => (s', Err e)
                              | Ok y => if sc_unstable c y then (s', Ok None)
                                        else match case_draws n' c s' with
                                             | (s2, Ok (Some ys)) => (s2, Ok (Some (y :: ys)))
                                             | z => z
                                             end
                              end
              end
    end.
  (* np.mean(draws, axis=0) of the first k columns.  The mean of no draws is the number nan, which Lp_error and
     frobenius_error refuse; arrays of different shapes cannot be averaged. *)
  Definition same_shape_sol (a b : sol) : bool := (length a =? length b) && forallb (fun p => length (fst p) =? length (snd p)) (combine a b).
  Definition fsum (l : list fnum) : fnum := fold_left fadd l (F 0).
  Definition mean_draws (k : nat) (ys : list sol) : res sol :=
    match map (map (firstn k)) ys with
    | [] => Err ValueError
    | y :: t => if negb (forallb (same_shape_sol y) t) then Err ValueError
                else Ok (map (fun i => map (fun j => fdivn (fsum (map (fun z => fentry z i j) (y :: t))) (length (y :: t)))
                                            (seq 0 (length (nth i y [])))) (seq 0 (length y)))
    end.
  (* the trajectories in turn: _bayes.py:365-387, 507-525; with each, the number of its training snapshots *)
  Fixpoint sum_draws (n : nat) (l : list (nat * sel_case model)) (e : fnum) (s : bstate G) : bstate G * res (option fnum) :=
    match l with
    | [] => (s, Ok (Some e))
    | (k, c) :: l' =>
        match case_draws n c s with
        | (s', Err er) => (s', Err er)
        | (s', Ok None) => (s', Ok None)
        | (s', Ok (Some ys)) => match (do m <- mean_draws k ys; sc_error c m) with
                                | Err er => (s', Err er)
                                | Ok x => sum_draws n l' (fadd e x) s'
                                end
        end
    end.
  (* training_error(reg_params): _bayes.py:348-387, 490-525 *)
  Definition btraining_error (LX : lsx) (MX : mvn) (factory : param -> res sreg) (n : nat) (tests : list (sel_test model))
      (cases : list (nat * sel_case model)) (total : nat) (s : bstate G) (p : param) : bstate G * res fnum :=
    match bupdate LX MX factory s p with
    | (s', Err e) => (s', Err e)
    | (s', Ok _) =>
        match bs_post s' with
        | None => (s', Ok PInf)
        | Some _ =>
            match test_all n tests s' with
            | (s2, Err e) => (s2, Err e)
            | (s2, Ok false) => (s2, Ok PInf)
            | (s2, Ok true) => match sum_draws n cases (F 0) s2 with
                               | (s3, Err e) => (s3, Err e)
                               | (s3, Ok None) => (s3, Ok PInf)
                               | (s3, Ok (Some e)) => (s3, Ok (fdivn e total))
                               end
            end
        end
    end.
  (* the search and the final update: _bayes.py:389-398, 527-536 *)
  Definition bselect (LX : lsx) (MX : mvn) (factory : param -> res sreg) (bounded : R -> R -> strat) (nelder_mead : list fnum -> strat)
      (only : bool) (c : cand_arg) (n : nat) (tests : list (sel_test model)) (cases : list (nat * sel_case model)) (total : nat)
      (s : bstate G) : bstate G * res unit :=
    match gridsearch (btraining_error LX MX factory n tests cases total) bounded nelder_mead only c s with
    | (s', Err e) => (s', Err e)
    | (s', Ok p) => bupdate LX MX factory s' p
    end.

  Definition reset_solver (r : rom) : rom := rom_with (with_solver (option_map lsq_reset (m_solver (rm_model r))) (rm_model r)) r.
  (* fit_regselect_discrete: _bayes.py:400-536 *)
  Definition bayes_discrete (LX : lsx) (MX : mvn) (PR : dpredict) (bounded : R -> R -> strat) (nelder_mead : list fnum -> strat)
      (b : brom) (g : G) (c : cand_arg) (T : training) (ft : bool) (fb : option BasisModel.ext) (factory : param -> res sreg)
      (only : bool) (num_test_iters : Z) (margin : R) (draws : nat) (tests : list dtest) : brom * G * res unit :=
    if rm_cont (br_rom b) then (b, g, Err AttributeError)
    else
      match (do q <- fix_single T; let '(Qs, _, Us) := q in
             raise_if (num_test_iters <? 0)%Z with ValueError;; do _ <- dinputs_ok num_test_iters Qs Us; Ok (Qs, Us)) with
      | Err e => (b, g, Err e)
      | Ok (Qs, Us) =>
          match rom_fit_with (fit_solver LX) (reset_solver (br_rom b)) (Several Qs None Us) ft fb with
          | (r', Err e) => ({| br_rom := r'; br_post := br_post b |}, g, Err e)
          | (r', Ok es) =>
              let b' := {| br_rom := r'; br_post := br_post b |} in
              match (do Es <- mapM as_mat_r es;
                     do cases <- mapM (fun Qu => dcase PR margin num_test_iters (fst Qu) (snd Qu)) (combine Es (inputs_for (length Es) Us));
                     do ts <- mapM (process_dtest PR (rm_parts r')) tests;
                     Ok (ts, combine (map (@ncols) Es) cases)) with
              | Err e => (b', g, Err e)
              | Ok (ts, cases) =>
                  let '(s, x) := bselect LX MX factory bounded nelder_mead only c draws ts cases (length es) (bstate_of b' g) in
                  (brom_of b' s, bs_gen s, x)
              end
          end
      end.
  (* fit_regselect_continuous: _bayes.py:239-398 *)
  Definition bayes_continuous (LX : lsx) (MX : mvn) (PR : cpredict) (bounded : R -> R -> strat) (nelder_mead : list fnum -> strat)
      (b : brom) (g : G) (c : cand_arg) (ts : list vec) (Qs : list arr) (Zs : option (list arr)) (us : option (list infun)) (ft : bool)
      (fb : option BasisModel.ext) (factory : param -> res sreg) (only : bool) (test_time_length : R) (margin : R) (draws : nat)
      (tests : list ctest) : brom * G * res unit :=
    if negb (rm_cont (br_rom b)) then (b, g, Err AttributeError)
    else
      match (do q <- fix_single (Several Qs Zs None); do _ <- match ts with [] => Err IndexError | _ => Ok tt end;
             raise_if (existsb (fun tQ => negb (length (fst tQ) =? width_of (snd tQ))) (combine ts Qs)) with DimensionalityError;;
             do Us <- match us with None => Ok None | Some [] => Err IndexError | Some us => do l <- mapM (fun ut => sample (fst ut) (snd ut)) (combine us ts); Ok (Some l) end;
             raise_if (if Rlt_dec test_time_length 0 then true else false) with ValueError;; Ok Us) with
      | Err e => (b, g, Err e)
      | Ok Us =>
          match rom_fit_with (fit_solver LX) (reset_solver (br_rom b)) (Several Qs Zs Us) ft fb with
          | (r', Err e) => ({| br_rom := r'; br_post := br_post b |}, g, Err e)
          | (r', Ok _) =>
              let b' := {| br_rom := r'; br_post := br_post b |} in
              match (do es <- mapM (encode1 (rm_parts r')) Qs;
                     do Es <- mapM as_mat_r es;
                     do _ <- mapM (limit_of margin) Es;
                     do tests <- mapM (process_ctest PR (rm_parts r')) tests;
                     do tds <- mapM (extend_times test_time_length) ts;
                     do cases <- mapM (fun x => ccase PR margin (fst (fst x)) (snd (fst x)) (snd x))
                                  (combine (combine Es (match us with None => repeat None (length Es) | Some us => map Some us end)) tds);
                     Ok (tests, combine (map (@ncols) Es) cases)) with
              | Err e => (b', g, Err e)
              | Ok (tests, cases) =>
                  let '(s, x) := bselect LX MX factory bounded nelder_mead only c draws tests cases (length Qs) (bstate_of b' g) in
                  (brom_of b' s, bs_gen s, x)
              end
          end
      end.
End Random.

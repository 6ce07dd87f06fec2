(* Prop_DdtItp.v -- properties C62 (time derivatives by interpolation) and C63 (verification of derivative estimators). *)
From Coq Require Import ZArith Reals Lra Lia List.
From Verif Require Import DdtItpFinal SpecDdtItp.
#[local] Open Scope nat_scope.

(* C62: the derivatives are those of the interpolants of the rows at the times asked for; without new times states and inputs come back unchanged, with new times they are the values of their interpolants there. *)
Theorem C62_estimate :
  forall lib : icname -> rule, forall t n t2 e r Q u Q1 D1 u1,
  ide_init lib (V t) (ICName (Some n)) t2 = Ok e -> 0 < r -> is_mat r (length t) Q -> aligned (length t) u -> ide_estimate e (M Q) u = Ok (Q1, D1, u1) ->
    exists gs, interpolated (lib n) t r Q gs /\ evaluated 1 r gs (times_out t t2) D1 /\
      (t2 = NNone -> Q1 = Q /\ u1 = option_map (fun a => M (two_dim a)) u) /\
      (t2 <> NNone -> evaluated 0 r gs (times_out t t2) Q1 /\ (u = None -> u1 = None) /\
         forall a, u = Some a -> exists hs U1, u1 = Some (M U1) /\ interpolated (lib n) t (length (two_dim a)) (two_dim a) hs /\ evaluated 0 (length (two_dim a)) hs (times_out t t2) U1).
Proof. exact named_estimate. Qed.
Print Assumptions C62_estimate.

(* C62: if the interpolants of the library meet the data and their derivatives are right, the returned derivatives are the derivatives of functions through the data, and the returned states are the values of the same functions. *)
Theorem C62_derivative :
  forall lib : icname -> rule, forall t n t2 e r Q u Q1 D1 u1,
  ide_init lib (V t) (ICName (Some n)) t2 = Ok e -> 0 < r -> is_mat r (length t) Q -> aligned (length t) u -> ide_estimate e (M Q) u = Ok (Q1, D1, u1) ->
    meets_data (lib n) -> differentiates (lib n) (times_out t t2) -> is_mat r (length (times_out t t2)) Q1 /\ is_mat r (length (times_out t t2)) D1 /\
    exists f : nat -> R -> R, (forall i j, i < r -> j < length t -> f i (vget t j) = mget Q i j) /\
      forall i j, i < r -> j < length (times_out t t2) -> mget Q1 i j = f i (vget (times_out t t2) j) /\ derivable_pt_lim (f i) (vget (times_out t t2) j) (mget D1 i j).
Proof. exact named_derivative. Qed.
Print Assumptions C62_derivative.

(* C62: an estimate is made whenever the library accepts the rows; states and derivatives have one column per time. *)
Theorem C62_defined :
  forall lib : icname -> rule, forall t n t2 e r Q u,
  ide_init lib (V t) (ICName (Some n)) t2 = Ok e -> 0 < r -> is_mat r (length t) Q -> aligned (length t) u -> (forall row, In row Q -> exists g, lib n t row = Ok g) ->
    (forall a row, u = Some a -> In row (two_dim a) -> exists g, lib n t row = Ok g) -> exists Q1 D1 u1, ide_estimate e (M Q) u = Ok (Q1, D1, u1) /\ ncols Q1 = length (times_out t t2) /\ ncols D1 = length (times_out t t2).
Proof. exact named_defined. Qed.
Print Assumptions C62_defined.

(* C62: mask gives the states and inputs that estimate returns. *)
Theorem C62_mask :
  forall e Q u Q1 D1 u1,
  ide_estimate e (M Q) u = Ok (Q1, D1, u1) -> ide_mask e (M Q) = Ok (M Q1) /\
    match u with None => u1 = None | Some a => exists b, u1 = Some b /\ ide_mask e (M (two_dim a)) = Ok b end.
Proof. exact estimate_mask. Qed.
Print Assumptions C62_mask.

(* C62: mask of a one-dimensional array is mask of a matrix with one row. *)
Theorem C62_mask_row :
  forall lib : icname -> rule, forall e n v,
  id_class e = interp_of (lib n) 1 -> length v = length (id_time e) ->
    match ide_mask e (V v), ide_mask e (M [v]) with Ok (V w), Ok (M [w']) => w = w' | Err a, Err b => a = b | _, _ => False end.
Proof. exact mask_1d. Qed.
Print Assumptions C62_mask_row.

(* C62: one-dimensional states, states that do not match the times and inputs that do not match the states are refused. *)
Theorem C62_rejects :
  forall e Q u,
  (exists v, Q = V v) \/ (exists A, Q = M A /\ ncols A <> length (id_time e)) \/ (exists A a, Q = M A /\ u = Some a /\ ncols (two_dim a) <> ncols A) -> ide_estimate e Q u = Err DimensionalityError.
Proof. exact estimate_rejects. Qed.
Print Assumptions C62_rejects.

(* C62: arguments of the constructor that are refused. *)
Theorem C62_rejects_arguments :
  forall lib : icname -> rule, forall t c t2,
  ((exists A, t = M A) \/ c = ICName None -> ide_init lib t c t2 = Err ValueError) /\
    ((exists v, t = V v) -> c <> ICName None -> t2 = NOther \/ (exists A, t2 = NArr (M A)) -> ide_init lib t c t2 = Err TypeError).
Proof. exact init_refuses. Qed.
Print Assumptions C62_rejects_arguments.

(* C62: an interpolator given as a class with its default options is used along the columns, and refuses data with another number of rows than times. *)
Theorem C62_class_refuses :
  forall lib : icname -> rule, forall f t t2 e r Q,
  ide_init lib (V t) (ICClass (interp_of f 0)) t2 = Ok e -> 0 < r -> 0 < length t -> is_mat r (length t) Q -> r <> length t -> ide_estimate e (M Q) None = Err ValueError.
Proof. exact class_refuses_data. Qed.
Print Assumptions C62_class_refuses.

(* C62, refuted: with as many rows as times such an interpolator gives wrong derivatives without any error. *)
Theorem C62_class_refuted :
  exists (lib : icname -> rule) n e1 e2 Q D1 D2, meets_data (lib n) /\ (forall ts, differentiates (lib n) ts) /\
  ide_init lib (V [0; 1]%R) (ICName (Some n)) NNone = Ok e1 /\ ide_init lib (V [0; 1]%R) (ICClass (interp_of (lib n) 0)) NNone = Ok e2 /\ is_mat 2 2 Q /\
  ide_estimate e1 (M Q) None = Ok (Q, D1, None) /\ ide_estimate e2 (M Q) None = Ok (Q, D2, None) /\ D1 = [[1; 1]; [2; 2]]%R /\ D2 = [[5; 6]; [5; 6]]%R.
Proof. exact class_wrong. Qed.
Print Assumptions C62_class_refuted.

(* C63: the derivatives the estimates are compared with are the derivatives of the test functions. *)
Theorem C63_tests :
  forall i f f' x,
  nth_error vtests i = Some (f, f') -> (1 <= x)%R -> derivable_pt_lim f x (f' x).
Proof. exact tests_derivative. Qed.
Print Assumptions C63_tests.

(* C63: verify reports, for every step size, the relative errors of the estimates of the derivatives at the first times; the estimator is left as it was, and its outputs have the right shapes. *)
Theorem C63_reports :
  forall (St : Type) (estimate : St -> arr -> option arr -> res (mat * mat * option arr)) (time : St -> vec) (set_time : vec -> St -> St),
  time_laws time set_time -> forall npts dts Q U e e' errss,
  verify estimate time set_time npts dts Q U e = (e', Ok errss) ->
    e' = e /\ good_shapes estimate Q U e /\ Forall2 (fun dt errs => reports estimate set_time npts e dt errs) dts errss.
Proof. exact @verify_ok. Qed.
Print Assumptions C63_reports.

(* C63: outputs with other shapes are an error, and the estimator is left as it was. *)
Theorem C63_shapes :
  forall (St : Type) (estimate : St -> arr -> option arr -> res (mat * mat * option arr)) (time : St -> vec) (set_time : vec -> St -> St),
  forall npts dts Q U e,
  ~ good_shapes estimate Q U e -> exists x, verify estimate time set_time npts dts Q U e = (e, Err x) /\
    ((exists o1 o2, estimate e (M Q) None = Ok o1 /\ estimate e (M Q) (Some (M U)) = Ok o2) -> x = VerificationError).
Proof. exact @verify_shapes_fail. Qed.
Print Assumptions C63_shapes.

(* C63: with uniform finite differences verify returns, the estimator is unchanged, and for the schemes that return the first states the errors are those of the estimates. *)
Theorem C63_uniform :
  forall e npts dts r m Q U,
  0 < r -> 0 < m -> is_mat r (length (u_time e)) Q -> is_mat m (length (u_time e)) U -> enough (u_scheme e) (length (u_time e)) -> enough (u_scheme e) npts -> 0 < kept (u_scheme e) npts ->
  exists errss, ufd_verify npts dts Q U e = (e, Ok errss) /\ Forall2 (fun dt errs => let t := vtimes npts dt in exists Q1 D1, ufd_estimate {| u_time := t; u_scheme := u_scheme e |} (M (vstates t)) None = Ok (Q1, D1, None) /\
    placed (length vtests) (first_time (u_scheme e)) (vstates t) Q1 /\ length errs = length vtests /\
    (first_time (u_scheme e) = 0 -> forall i f, nth_error vtests i = Some f -> compared 0 (ncols Q1) t (snd f) D1 i (nth i errs None))) dts errss.
Proof. exact ufd_verify_ok. Qed.
Print Assumptions C63_uniform.

(* C63: the same with nonuniform finite differences. *)
Theorem C63_nonuniform :
  forall npts dts Q U t t' errss,
  0 < npts -> nfd_verify npts dts Q U t = (t', Ok errss) -> t' = t /\ Forall2 (fun dt errs => let t := vtimes npts dt in exists D1, nfd_estimate t (M (vstates t)) None = Ok (vstates t, D1, None) /\
    length errs = length vtests /\ forall i f, nth_error vtests i = Some f -> compared 0 npts t (snd f) D1 i (nth i errs None)) dts errss.
Proof. exact nfd_verify_true. Qed.
Print Assumptions C63_nonuniform.

(* C63: the same with interpolation. *)
Theorem C63_interpolation :
  forall (lib : icname -> rule) n npts dts Q U e e' errss,
  id_class e = interp_of (lib n) 1 -> 0 < npts -> ide_verify npts dts Q U e = (e', Ok errss) -> e' = e /\ Forall2 (fun dt errs => let t := vtimes npts dt in exists D1,
    ide_estimate {| id_time := t; id_class := id_class e; id_new := None |} (M (vstates t)) None = Ok (vstates t, D1, None) /\
    length errs = length vtests /\ forall i f, nth_error vtests i = Some f -> compared 0 npts t (snd f) D1 i (nth i errs None)) dts errss.
Proof. exact ide_verify_true. Qed.
Print Assumptions C63_interpolation.

(* C63: verify restores the new times of an interpolating estimator, whatever its interpolator. *)
Theorem C63_restores :
  forall npts dts Q U e e' errss,
  ide_verify npts dts Q U e = (e', Ok errss) -> e' = e.
Proof. exact ide_verify_ok. Qed.
Print Assumptions C63_restores.

(* C63, refuted: with first-order backward differences the reported error is not that of the estimates, for every number of times and every step size. *)
Theorem C63_shifted_refuted :
  forall e npts dt r m Q U,
  u_scheme e = Bwd1 -> 0 < length (u_time e) -> 2 <= npts -> (0 < dt)%R -> 0 < r -> 0 < m -> is_mat r (length (u_time e)) Q -> is_mat m (length (u_time e)) U ->
  exists errs Q1 D1 x y, let t := vtimes npts dt in ufd_verify npts [dt] Q U e = (e, Ok [errs]) /\ ufd_estimate {| u_time := t; u_scheme := Bwd1 |} (M (vstates t)) None = Ok (Q1, D1, None) /\
    placed (length vtests) 1 (vstates t) Q1 /\ nth_error vtests 3 = Some (exp, exp) /\ nth_error errs 3 = Some (Some x) /\ true_error 1 (ncols Q1) t exp D1 3 y /\ (y < x)%R.
Proof. exact bwd1_misreported. Qed.
Print Assumptions C63_shifted_refuted.

(* C63: if an estimate raises an exception the estimator is left with a time domain of the test. *)
Theorem C63_raise :
  forall (St : Type) (estimate : St -> arr -> option arr -> res (mat * mat * option arr)) (time : St -> vec) (set_time : vec -> St -> St),
  time_laws time set_time -> forall npts dts Q U e e' x,
  verify estimate time set_time npts dts Q U e = (e', Err x) -> good_shapes estimate Q U e -> exists dt, In dt dts /\ e' = set_time (vtimes npts dt) e.
Proof. exact @verify_raises. Qed.
Print Assumptions C63_raise.

(* C63, refuted: this happens to every interpolating estimator with an interpolator given as a class with default options, if it has five times; the new times are lost as well. *)
Theorem C63_raise_refuted :
  forall f e npts dt dts Q U m,
  accepts f -> id_class e = interp_of f 0 -> length (id_time e) = 5 -> is_mat 5 5 Q -> 0 < m -> is_mat m 5 U -> 0 < npts -> npts <> 6 ->
  exists e', ide_verify npts (dt :: dts) Q U e = (e', Err ValueError) /\ id_time e' = vtimes npts dt /\ id_new e' = None.
Proof. exact verify_not_restored. Qed.
Print Assumptions C63_raise_refuted.

(* ---- the hypotheses can be met ---- *)
(* two rows at the times 0 and 1, estimated at 1/2 with the straight line through the data *)
Definition lib0 : icname -> rule := fun _ => line_rule.
Example C62_example : exists e, ide_init lib0 (V [0; 1]%R) (ICName (Some Pchip)) (NArr (V [/ 2]%R)) = Ok e /\ is_mat 2 2 [[0; 1]; [5; 7]]%R /\ aligned 2 (Some (V [1; 3]%R)) /\
  meets_data (lib0 Pchip) /\ differentiates (lib0 Pchip) [/ 2]%R /\ exists Q1 D1 U1, ide_estimate e (M [[0; 1]; [5; 7]]%R) (Some (V [1; 3]%R)) = Ok (Q1, D1, Some (M U1)) /\ Q1 = [[/ 2]; [6]]%R /\ D1 = [[1]; [2]]%R /\ U1 = [[2]]%R.
Proof. eexists. split; [reflexivity|]. split; [split; [reflexivity|repeat constructor]|]. split; [reflexivity|]. split; [exact line_meets|]. split; [exact (line_diff _)|]. do 3 eexists. split; [|split; [|split]].
  - unfold ide_estimate, interp_of. cbn -[Rdiv Rminus Rmult Rplus Rinv Req_EM_T]. destruct (Req_EM_T 0 1); [lra|]. cbn -[Rdiv Rminus Rmult Rplus Rinv]. reflexivity.
  - repeat (f_equal; try (field; fail)).
  - repeat (f_equal; try (field; fail)).
  - repeat (f_equal; try (field; fail)). Qed.
Example C62_example_rows : forall row, In row [[0; 1]; [5; 7]]%R -> exists g, lib0 Cubic [0; 1]%R row = Ok g.
Proof. intros row [<-|[<-|[]]]; unfold lib0, line_rule; destruct (Req_EM_T 0 1); try lra; eauto. Qed.
Example C62_example_class : exists e, ide_init lib0 (V [0; 1]%R) (ICClass (interp_of line_rule 0)) NNone = Ok e /\ is_mat 3 2 [[0; 1]; [5; 7]; [2; 2]]%R /\ 3 <> length [0; 1]%R.
Proof. eexists. split; [reflexivity|]. split; [split; [reflexivity|repeat constructor]|discriminate]. Qed.

(* an estimator with a forward and one with a backward scheme *)
Definition fwd_ex := {| u_time := [0; 1; 2]%R; u_scheme := Fwd2 |}.
Definition bwd_ex := {| u_time := [0; 1; 2]%R; u_scheme := Bwd1 |}.
Example C63_example : 0 < 1 /\ is_mat 1 (length (u_time fwd_ex)) [[1; 2; 3]]%R /\ enough (u_scheme fwd_ex) (length (u_time fwd_ex)) /\ enough (u_scheme fwd_ex) 4 /\ 0 < kept (u_scheme fwd_ex) 4 /\ first_time (u_scheme fwd_ex) = 0 /\
  u_scheme bwd_ex = Bwd1 /\ 0 < length (u_time bwd_ex) /\ (0 < / 10)%R.
Proof. split; [lia|]. split; [split; [reflexivity|repeat constructor]|]. cbn. repeat split; try lia. lra. Qed.
Example C63_example_laws : time_laws u_time ufd_set /\ time_laws id_time ide_set.
Proof. split; [exact ufd_laws|exact ide_laws]. Qed.
(* all three classes return from verify() *)
Example C63_example_returns : (exists errss, ufd_verify 4 [/ 10]%R [[1; 2; 3]]%R [[1; 2; 3]]%R fwd_ex = (fwd_ex, Ok errss)) /\ (exists errss, nfd_verify 4 [/ 10]%R [[1; 2; 3]]%R [[1; 2; 3]]%R [0; 1; 2]%R = ([0; 1; 2]%R, Ok errss)).
Proof. split.
  - destruct (ufd_verify_ok fwd_ex 4 [/ 10]%R 1 1 [[1; 2; 3]]%R [[1; 2; 3]]%R) as (errss & E & _); try (cbn; lia); try (split; [reflexivity|repeat constructor]). eauto.
  - eapply (verify_defined nfd_estimate (fun t => t) (fun t _ => t)); [exact nfd_laws| |].
    + unfold good_shapes. do 6 eexists. split; [reflexivity|]. repeat split.
    + intros dt _. do 3 eexists. split; [reflexivity|]. cbn. split; [lia|]. split; [reflexivity|]. split; [reflexivity|]. repeat constructor. Qed.
(* an estimator whose time domain is lost: the interpolation is with constants *)
Definition const_rule : rule := fun _ _ => Ok (fun _ _ => 0%R).
Example C63_example_lost : accepts const_rule /\ exists e, ide_init lib0 (V [0; 1; 2; 3; 4]%R) (ICClass (interp_of const_rule 0)) (NArr (V [1]%R)) = Ok e /\ length (id_time e) = 5 /\ id_new e = Some [1%R].
Proof. split; [intros t v _; eexists; reflexivity|]. eexists. split; [reflexivity|]. split; reflexivity. Qed.

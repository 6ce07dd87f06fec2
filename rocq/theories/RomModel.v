(* RomModel.v -- roms/_base.py (encode, decode, project, fit), roms/_nonparametric.py and roms/_parametric.py.
   The regularization searches are in RegselModel.v.  Calls are made with inplace=False (in-place calls of the
   transformers: PreHeap.v); warnings and printing are not modelled.  If a call raises, what it has already done to the
   transformer and the basis is not modelled.  No proofs here. *)
From Coq Require Import ZArith String.
From Verif Require Export SpecLift LiftModel BasisModel DdtModel ParaModel.
#[local] Open Scope nat_scope.
#[local] Open Scope list_scope.

(* ---- the parts ---------------------------------------------------------------------------------------------------- *)
(* a lifter: any object with these three methods (lift/_base.py:15-127) *)
Record lifter := { lf_lift : arr -> res arr; lf_ddts : arr -> arr -> res arr; lf_unlift : arr -> res arr }.
(* QuadraticLifter and PolynomialLifter (LiftModel.v); arrays with inf or nan go no further in this model *)
Definition all_finite (L : narr) : res arr :=
  let fin x := match x with F y => Ok y | _ => Err OtherError end in
  match L with
  | NV v => do u <- mapM fin v; Ok (V u)
  | NM m => do A <- mapM (mapM fin) m; Ok (M A)
  end.
Definition quad_lifter : lifter :=
  {| lf_lift := fun Q => do L <- quad_lift Q; all_finite L; lf_ddts := fun Q D => do L <- quad_lift_ddts Q D; all_finite L;
     lf_unlift := fun L => do Q <- quad_unlift (finite L); all_finite Q |}.
Definition poly_lifter (orders : vec) : lifter :=
  {| lf_lift := fun Q => do L <- poly_lift orders Q; all_finite L; lf_ddts := fun Q D => do L <- poly_lift_ddts orders Q D; all_finite L;
     lf_unlift := fun L => do Q <- poly_unlift orders (finite L); all_finite Q |}.
(* a basis: LinearBasis, PODBasis, or BasisMulti *)
Inductive rbasis := BOne (b : basis) | BMany (bs : list basis).
Definition rb_compress (b : rbasis) : arr -> res arr := match b with BOne b => b_compress b | BMany bs => bm_compress bs end.
Definition rb_decompress (b : rbasis) : arr -> option locsel -> res arr := match b with BOne b => b_decompress b | BMany bs => bm_decompress bs end.
Definition rb_fit (X : BasisModel.ext) (b : rbasis) (a : arr) : res rbasis :=
  match b with BOne b => do b' <- b_fit X b a; Ok (BOne b') | BMany bs => do bs' <- bm_fit X bs a; Ok (BMany bs') end.
(* a derivative estimator: any object with estimate(states, inputs) (ddt/_base.py); ufd_estimate e and nfd_estimate t of
   DdtModel.v are two of them *)
Definition ddter := arr -> option arr -> res (mat * mat * option arr).
Record parts := { rp_lift : option lifter; rp_tf : option tf; rp_basis : option rbasis }.

(* ---- encode, decode, project ----------------------------------------------------------------------------------------- *)
(* skip what is absent *)
Definition opt_call {A B} (x : option A) (f : A -> B -> res B) (b : B) : res B := match x with None => Ok b | Some a => f a b end.
Definition opt_map {A} (f : A -> res A) (x : option A) : res (option A) := match x with None => Ok None | Some a => do b <- f a; Ok (Some b) end.
(* lifting: _base.py:195-201 *)
Definition rom_lift (P : parts) (cont : bool) (a : arr) (lhs : option arr) : res (arr * option arr) :=
  match rp_lift P with
  | None => Ok (a, lhs)
  | Some f => do z <- opt_map (fun z => if cont then lf_ddts f a z else lf_lift f z) lhs;
              do b <- lf_lift f a; Ok (b, z)
  end.
(* preprocessing: _base.py:204-216 *)
Definition rom_transform (P : parts) (cont ft : bool) (a : arr) (lhs : option arr) : res (parts * arr * option arr) :=
  match rp_tf P with
  | None => Ok (P, a, lhs)
  | Some t => do tb <- (if ft then fit_transform t a else do b <- transform t a; Ok (t, b));
              let '(t', b) := tb in
              do z <- opt_map (if cont then transform_ddts t' else transform t') lhs;
              Ok ({| rp_lift := rp_lift P; rp_tf := Some t'; rp_basis := rp_basis P |}, b, z)
  end.
(* dimension reduction: _base.py:219-224; fb is Some routines for fit_basis=True *)
Definition rom_compress (P : parts) (fb : option BasisModel.ext) (a : arr) (lhs : option arr) : res (parts * arr * option arr) :=
  match rp_basis P with
  | None => Ok (P, a, lhs)
  | Some b => do b' <- match fb with Some X => rb_fit X b a | None => Ok b end;
              do q <- rb_compress b' a;
              do z <- opt_map (rb_compress b') lhs;
              Ok ({| rp_lift := rp_lift P; rp_tf := rp_tf P; rp_basis := Some b' |}, q, z)
  end.
(* encode(states, lhs, fit_transformer, fit_basis): _base.py:195-228; cont says whether the model is time-continuous *)
Definition encode_fit (P : parts) (cont ft : bool) (fb : option BasisModel.ext) (a : arr) (lhs : option arr) : res (parts * arr * option arr) :=
  do al <- rom_lift P cont a lhs; let '(a1, z1) := al in
  do at_ <- rom_transform P cont ft a1 z1; let '(P2, a2, z2) := at_ in
  rom_compress P2 fb a2 z2.
(* encode(states, lhs) *)
Definition encode (P : parts) (cont : bool) (a : arr) (lhs : option arr) : res (arr * option arr) :=
  do x <- encode_fit P cont false None a lhs; let '(_, q, z) := x in Ok (q, z).
(* encode(states) *)
Definition encode1 (P : parts) (a : arr) : res arr := do qz <- encode P false a None; Ok (fst qz).
(* decode(states_encoded, locs): _base.py:247-267 *)
Definition decode (P : parts) (q : arr) (locs : option locsel) : res arr :=
  do x <- opt_call (rp_basis P) (fun b y => rb_decompress b y locs) q;
  do y <- opt_call (rp_tf P) (fun t z => inverse_transform t locs z) x;
  opt_call (rp_lift P) lf_unlift y.
(* project(states): _base.py:292 *)
Definition rom_project (P : parts) (a : arr) : res arr := do q <- encode1 P a; decode P q None.

(* ---- training data ----------------------------------------------------------------------------------------------------- *)
(* the arguments (states, lhs, inputs) of fit(): one trajectory or a list of trajectories *)
Inductive training := Single (Q : mat) (Z : option arr) (U : option arr)
                    | Several (Qs : list arr) (Zs : option (list arr)) (Us : option (list arr)).
(* _fix_single_trajectory: _base.py:317-323; states[0] of an empty list is an IndexError.  A list of one-dimensional
   arrays, or states and lhs of different kinds, are not modelled. *)
Definition fix_single (T : training) : res (list arr * option (list arr) * option (list arr)) :=
  match T with
  | Single Q Z U => if nrows Q =? 0 then Err IndexError else Ok ([M Q], option_map (fun z => [z]) Z, option_map (fun u => [u]) U)
  | Several [] _ _ => Err IndexError
  | Several (V _ :: _) _ _ => Err OtherError
  | Several Qs Zs Us => Ok (Qs, Zs, Us)
  end.
(* lifting: _base.py:382-391 *)
Definition train_lift (P : parts) (cont : bool) (Qs : list arr) (Zs : option (list arr)) : res (list arr * option (list arr)) :=
  match rp_lift P with
  | None => Ok (Qs, Zs)
  | Some f => do zs <- opt_map (fun zs => if cont then mapM (fun x => lf_ddts f (fst x) (snd x)) (combine Qs zs) else mapM (lf_lift f) zs) Zs;
              do qs <- mapM (lf_lift f) Qs; Ok (qs, zs)
  end.
(* preprocessing: _base.py:394-402; fit(): pre/_base.py:108, fit_transform on a copy *)
Definition train_transform (P : parts) (cont ft : bool) (Qs : list arr) (Zs : option (list arr)) : res (parts * list arr * option (list arr)) :=
  match rp_tf P with
  | None => Ok (P, Qs, Zs)
  | Some t => do t' <- (if ft then do H <- hstack_arr Qs; do tb <- fit_transform t H; Ok (fst tb) else Ok t);
              do qs <- mapM (transform t') Qs;
              do zs <- opt_map (mapM (if cont then transform_ddts t' else transform t')) Zs;
              Ok ({| rp_lift := rp_lift P; rp_tf := Some t'; rp_basis := rp_basis P |}, qs, zs)
  end.
(* dimension reduction: _base.py:405-411 *)
Definition train_compress (P : parts) (fb : option BasisModel.ext) (Qs : list arr) (Zs : option (list arr)) : res (parts * list arr * option (list arr)) :=
  match rp_basis P with
  | None => Ok (P, Qs, Zs)
  | Some b => do b' <- match fb with Some X => do H <- hstack_arr Qs; rb_fit X b H | None => Ok b end;
              do qs <- mapM (rb_compress b') Qs;
              do zs <- opt_map (mapM (rb_compress b')) Zs;
              Ok ({| rp_lift := rp_lift P; rp_tf := rp_tf P; rp_basis := Some b' |}, qs, zs)
  end.
(* Q[:, 1:], Q[:, :-1] *)
Definition drop_first (a : arr) : res arr := match a with M Q => Ok (M (map (@tl R) Q)) | V _ => Err IndexError end.
Definition drop_last (a : arr) : res arr := match a with M Q => Ok (M (map (@removelast R) Q)) | V _ => Err IndexError end.
Definition width_of (a : arr) : nat := match a with M Q => ncols Q | V v => length v end.
(* derivative estimation / shifted states: _base.py:414-433.  Unzipping an empty list fails (ValueError). *)
Definition train_lhs (D : option ddter) (cont : bool) (Qs : list arr) (Zs Us : option (list arr)) : res (list arr * list arr * option (list arr)) :=
  match Zs with
  | Some zs => Ok (Qs, zs, Us)
  | None =>
      if cont then
        match D with
        | None => Err AttributeError
        | Some est =>
            match Us with
            | None => do l <- mapM (fun q => est q None) Qs;
                      if length l =? 0 then Err ValueError else Ok (map (fun x => M (fst (fst x))) l, map (fun x => M (snd (fst x))) l, None)
            | Some us => do l <- mapM (fun qu => do x <- est (fst qu) (Some (snd qu)); match snd x with Some u => Ok (fst x, u) | None => Err ValueError end) (combine Qs us);
                         if length l =? 0 then Err ValueError else Ok (map (fun x => M (fst (fst x))) l, map (fun x => M (snd (fst x))) l, Some (map snd l))
            end
        end
      else
        do zs <- mapM drop_first Qs; do qs <- mapM drop_last Qs;
        Ok (qs, zs, option_map (fun us => map2 (fun q u => cut (width_of q) u) qs us) Us)
  end.
(* _process_training_data: _base.py:382-435 *)
Definition process_training (P : parts) (D : option ddter) (cont ft : bool) (fb : option BasisModel.ext) (Qs : list arr) (Zs Us : option (list arr))
    : res (parts * (list arr * list arr * option (list arr))) :=
  do l <- train_lift P cont Qs Zs; let '(q1, z1) := l in
  do t <- train_transform P cont ft q1 z1; let '(P2, q2, z2) := t in
  do c <- train_compress P2 fb q2 z2; let '(P3, q3, z3) := c in
  do d <- train_lhs D cont q3 z3 Us; Ok (P3, d).
Definition given {A} (x : option A) : bool := match x with None => false | Some _ => true end.
(* _check_fit_args: _base.py:299-309 *)
Definition check_fit_args (cont hasin lhs inputs : bool) (D : option ddter) : res unit :=
  raise_if (negb lhs && cont && negb (given D)) with ValueError;;
  raise_if (negb inputs && hasin) with ValueError;; Ok tt.

(* ---- ROM: roms/_nonparametric.py ------------------------------------------------------------------------------------------ *)
Record rom := { rm_parts : parts; rm_ddt : option ddter; rm_model : model }.
Definition rm_cont (r : rom) : bool := match m_kind (rm_model r) with KContinuous => true | _ => false end.      (* _utils.py:25-30 *)
(* __init__: _base.py:86-101: an estimator is dropped unless the model is time-continuous *)
Definition mk_rom (d : model) (lf : option lifter) (t : option tf) (b : option rbasis) (D : option ddter) : rom :=
  {| rm_parts := {| rp_lift := lf; rp_tf := t; rp_basis := b |};
     rm_ddt := match m_kind d with KContinuous => D | _ => None end; rm_model := d |}.
(* model.fit(states, lhs, inputs): SteadyModel.fit takes two arguments only *)
Definition model_fit (X : lsx) (d : model) (Q L : arr) (U : option arr) : model * res unit :=
  match m_kind d with KDiscrete => discrete_fit X d Q (Some L) U | KContinuous => fit X d Q L U | KSteady => (d, Err TypeError) end.
Definition hstack_opt (Us : option (list arr)) : res (option arr) :=
  match Us with None => Ok None | Some us => do U <- hstack_arr us; Ok (Some U) end.
Definition train_args (T : training) : bool * bool :=
  match T with Single _ Z U => (given Z, given U) | Several _ Z U => (given Z, given U) end.
(* _fit_model with parameters=None: _base.py:495-523; solver_only=True calls model._fit_solver instead of model.fit.
   Simplified: if a later step of the processing raises, a transformer or basis that was already refitted stays so in the code. *)
Definition rom_fit_with (call : model -> arr -> arr -> option arr -> model * res unit) (r : rom) (T : training) (ft : bool) (fb : option BasisModel.ext)
    : rom * res (list arr) :=
  let step :=
    do _ <- check_fit_args (rm_cont r) (m_hasin (rm_model r)) (fst (train_args T)) (snd (train_args T)) (rm_ddt r);
    do q <- fix_single T; let '(Qs, Zs, Us) := q in
    process_training (rm_parts r) (rm_ddt r) (rm_cont r) ft fb Qs Zs Us in
  match step with
  | Err e => (r, Err e)
  | Ok (P, (qs, zs, us)) =>
      let with_model d := {| rm_parts := P; rm_ddt := rm_ddt r; rm_model := d |} in
      match (do U <- hstack_opt us; do Q <- hstack_arr qs; do L <- hstack_arr zs; Ok (Q, L, U)) with
      | Err e => (with_model (rm_model r), Err e)
      | Ok (Q, L, U) => let '(d, x) := call (rm_model r) Q L U in (with_model d, do _ <- x; Ok qs)
      end
  end.
(* ROM.fit(states, lhs, inputs, fit_transformer, fit_basis): _nonparametric.py:109-118 *)
Definition rom_fit (LX : lsx) (r : rom) (T : training) (ft : bool) (fb : option BasisModel.ext) : rom * res unit :=
  let '(r', x) := rom_fit_with (model_fit LX) r T ft fb in (r', do _ <- x; Ok tt).
(* ROM.predict(state0, *args): _nonparametric.py:346-348, for any predict method of the model *)
Definition rom_predict_with (pred : arr -> res arr) (P : parts) (q0 : arr) : res arr :=
  do e <- encode1 P q0; do Y <- pred e; decode P Y None.
(* of a time-discrete model: predict(state0, niters, inputs) *)
Definition rom_predict (r : rom) (q0 : arr) (niters : Z) (inputs : option inputarg) : res arr :=
  rom_predict_with (fun e => do Y <- predict (rm_model r) e niters inputs; Ok (M Y)) (rm_parts r) q0.

(* ---- ParametricROM: roms/_parametric.py ------------------------------------------------------------------------------------- *)
(* a parametric model: an operator-based one or an interpolating one *)
Inductive panymodel := PModel (d : pmodel) | PInterp (d : imodel).
Definition pa_base (d : panymodel) : pmodel := match d with PModel d => d | PInterp d => im_base d end.
Record prom := { pr_parts : parts; pr_ddt : option ddter; pr_model : panymodel }.
Definition pr_cont (r : prom) : bool := match pm_kind (pa_base (pr_model r)) with KContinuous => true | _ => false end.
(* model.fit(parameters, states, lhs, inputs); the time-discrete classes cut the inputs first: models/mono/_parametric.py:596-598 *)
Definition pmodel_fit (X : pext) (d : panymodel) (mus : list pval) (qs zs : list arr) (us : option (list arr)) : panymodel * res unit :=
  let us' := match pm_kind (pa_base d) with KDiscrete => option_map (fun us => map2 (fun u q => cut (width_of q) u) us qs) us | _ => us end in
  match d with
  | PModel d => let '(d', x) := pfit X d mus qs zs us' in (PModel d', x)
  | PInterp d => let '(d', x) := ifit X d mus qs zs us' in (PInterp d', x)
  end.
(* ParametricROM.fit(parameters, states, lhs, inputs, ...): _parametric.py:108-117, _base.py:495-523.  The trajectories are
   handed over separately.  _fix_single_trajectory is not called. *)
Definition prom_fit (PX : pext) (r : prom) (mus : list pval) (Qs : list arr) (Zs Us : option (list arr)) (ft : bool) (fb : option BasisModel.ext)
    : prom * res unit :=
  match (do _ <- check_fit_args (pr_cont r) (pm_hasin (pa_base (pr_model r))) (given Zs) (given Us) (pr_ddt r);
         process_training (pr_parts r) (pr_ddt r) (pr_cont r) ft fb Qs Zs Us) with
  | Err e => (r, Err e)
  | Ok (P, (qs, zs, us)) => let '(d, x) := pmodel_fit PX (pr_model r) mus qs zs us in
                            ({| pr_parts := P; pr_ddt := pr_ddt r; pr_model := d |}, x)
  end.
(* ParametricROM.predict(parameter, state0, *args): _parametric.py:142-144 *)
Definition prom_predict (r : prom) (mu : pval) (q0 : arr) (niters : Z) (inputs : option inputarg) : res arr :=
  rom_predict_with (fun e => do Y <- ppredict (pa_base (pr_model r)) mu e niters inputs; Ok (M Y)) (pr_parts r) q0.

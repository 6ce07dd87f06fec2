(* Prop_Itp.v -- property C64 (Galerkin projection of interpolated operators and parametric models; interpolating existing
   operators and models). *)
From Coq Require Import ZArith Reals Lra Lia List.
From Verif Require Import GalProofs ItpModels SpecItp.
From Verif Require Import SpecPara.
#[local] Open Scope nat_scope.

(* C64: the constructor with an interpolator class makes an object that interpolates the given operators. *)
Theorem C64_made :
  forall (cubic linearnd : iclass), forall n m c p ps C ops t,
  0 < n -> family n m c ops -> points p ps -> length ops = length ps ->
    i_init cubic linearnd c ps (map entries2 ops) (Some C) = Ok t -> i_cls t = c /\ interpolated n m t ps p C ops.
Proof. exact init_interpolated. Qed.
Print Assumptions C64_made.

(* C64: so does the constructor without a class, for increasing numbers; the class is then CubicSpline. *)
Theorem C64_made_default :
  forall (cubic linearnd : iclass), forall n m c xs ops,
  0 < n -> family n m c ops -> xs <> [] -> strictly_inc xs -> length ops = length xs ->
    forall t, i_init cubic linearnd c (map PS xs) (map entries2 ops) None = Ok t -> i_cls t = c /\ interpolated n m t (map PS xs) 1 cubic ops.
Proof. exact init_default. Qed.
Print Assumptions C64_made_default.

(* C64: the projected operator, at each training parameter, is the projection of the operator at that parameter; parameters and interpolator class are kept. *)
Theorem C64_galerkin_at_training :
  forall (X : pext) (solve : mat -> mat -> res mat) (junk : nat -> vec) (n r m : nat) (Vr : mat) (Wr : option mat),
  solve_spec solve -> (forall k, length (junk k) = k) -> 0 < n -> 0 < r -> 0 < m -> is_mat n r Vr ->
  let W := match Wr with None => Vr | Some W => W end in
  is_mat n r W -> (matmul (mT W) Vr = eye r \/ allclose (matmul (mT W) Vr) (eye r) = false) ->
  forall t ps p C ops tg,
  interpolated n m t ps p C ops -> interpolates C ps (PS 0) -> i_galerkin X solve junk t Vr Wr = Ok tg ->
    i_cls tg = i_cls t /\ i_params tg = i_params t /\ i_iclass tg = i_iclass t /\
    forall i, i < length ps -> exists o g, i_evaluate t (nth i ps (PS 0)) = Ok o /\ galerkin solve junk o Vr Wr = Ok g /\ i_evaluate tg (nth i ps (PS 0)) = Ok g.
Proof. exact igal_at_points. Qed.
Print Assumptions C64_galerkin_at_training.

(* C64: if the interpolator depends linearly on the data, projecting and evaluating commute at every parameter. *)
Theorem C64_galerkin_commutes :
  forall (X : pext) (solve : mat -> mat -> res mat) (junk : nat -> vec) (n r m : nat) (Vr : mat) (Wr : option mat),
  solve_spec solve -> (forall k, length (junk k) = k) -> 0 < n -> 0 < r -> 0 < m -> is_mat n r Vr ->
  let W := match Wr with None => Vr | Some W => W end in
  is_mat n r W -> (matmul (mT W) Vr = eye r \/ allclose (matmul (mT W) Vr) (eye r) = false) ->
  forall P : mat, is_mat r r P -> matmul P (matmul (mT W) Vr) = eye r ->
  forall t ps p C ops tg mu w,
  interpolated n m t ps p C ops -> i_galerkin X solve junk t Vr Wr = Ok tg ->
    plen mu = p -> linear_at C ps (as_point p mu) w ->
    exists o og, i_evaluate t mu = Ok o /\ i_evaluate tg mu = Ok og /\ wf_op n m o /\ wf_op r m og /\ cls_of o = i_cls t /\ cls_of og = i_cls t /\
    forall g, galerkin solve junk o Vr Wr = Ok g -> forall q u, is_vec r q -> is_vec m u -> apply og (V q) (V u) = apply g (V q) (V u).
Proof. exact igal_commutes. Qed.
Print Assumptions C64_galerkin_commutes.

(* C64: the projection is defined exactly if the projections of the operators are. *)
Theorem C64_galerkin_defined :
  forall (X : pext) (solve : mat -> mat -> res mat) (junk : nat -> vec) (n r m : nat) (Vr : mat) (Wr : option mat),
  solve_spec solve -> (forall k, length (junk k) = k) -> 0 < n -> 0 < r -> 0 < m -> is_mat n r Vr ->
  let W := match Wr with None => Vr | Some W => W end in
  is_mat n r W -> (matmul (mT W) Vr = eye r \/ allclose (matmul (mT W) Vr) (eye r) = false) ->
  forall t ps p C ops,
  interpolated n m t ps p C ops -> interpolates C ps (PS 0) ->
    ((exists tg, i_galerkin X solve junk t Vr Wr = Ok tg) <-> forall o, In o ops -> exists g, galerkin solve junk o Vr Wr = Ok g).
Proof. exact igal_defined. Qed.
Print Assumptions C64_galerkin_defined.

(* C64: the first error among the projections of the operators is the error that is raised. *)
Theorem C64_galerkin_raises :
  forall (X : pext) (solve : mat -> mat -> res mat) (junk : nat -> vec) (n m : nat) (Vr : mat) (Wr : option mat), 0 < n ->
  forall t ps p C ops pre o e,
  interpolated n m t ps p C (pre ++ o :: ops) -> Forall (fun o => exists g, galerkin solve junk o Vr Wr = Ok g) pre ->
    galerkin solve junk o Vr Wr = Err e -> i_galerkin X solve junk t Vr Wr = Err e.
Proof. exact igal_raises. Qed.
Print Assumptions C64_galerkin_raises.

(* C64, refuted: with the default class and training parameters that are not increasing the projection raises ValueError although the operator evaluates well. *)
Theorem C64_galerkin_unsorted_refuted :
  forall X solve junk n r m c xs ops gs Vr Wr,
  0 < n -> 0 < r ->
  (forall xs, 2 <= length xs -> strictly_inc xs -> interpolates (px_cubic X) (map PS xs) (PS 0)) ->
  (forall xs es, ~ strictly_inc xs -> px_cubic X (map PS xs) es = Err ValueError) ->
  family n m c ops -> family r m c gs -> Forall2 (fun o g => galerkin solve junk o Vr Wr = Ok g) ops gs ->
  NoDup xs -> 2 <= length xs -> ~ strictly_inc xs -> length ops = length xs ->
  exists t, i_init (px_cubic X) (px_linnd X) c (map PS xs) (map entries2 ops) None = Ok t /\
   (forall i, i < length xs -> i_evaluate t (PS (vget xs i)) = Ok (nth i ops (OConst []))) /\
   i_galerkin X solve junk t Vr Wr = Err ValueError.
Proof. exact igal_unsorted. Qed.
Print Assumptions C64_galerkin_unsorted_refuted.

(* C64: the projection of a parametric model, evaluated at a parameter, has the right-hand side of the projection of the evaluated model. *)
Theorem C64_model_galerkin :
  forall (X : pext) (solve : mat -> mat -> res mat) (junk : nat -> vec) (n r m : nat) (Vr : mat) (Wr : option mat) (P : mat),
  solve_spec solve -> (forall k, length (junk k) = k) -> 0 < n -> 0 < r -> 0 < m -> is_mat n r Vr ->
  let W := match Wr with None => Vr | Some W => W end in
  is_mat n r W -> (matmul (mT W) Vr = eye r \/ allclose (matmul (mT W) Vr) (eye r) = false) ->
  is_mat r r P -> matmul P (matmul (mT W) Vr) = eye r ->
  forall d dg mu,
  pm_ops d <> [] -> Forall (ready n m mu) (pm_ops d) -> pgalerkin X solve junk d Vr Wr = Ok dg ->
    pm_kind dg = pm_kind d /\ map pcls (pm_ops dg) = map pcls (pm_ops d) /\
    exists e e', snd (pevaluate d mu) = Ok e /\ snd (pevaluate dg mu) = Ok e' /\ m_r e = Some n /\ m_r e' = Some r /\
    forall eg, galerkin_model solve junk e Vr Wr = Ok eg -> forall q u, is_vec r q -> pinput_for d m u ->
      rhs e' (V q) (option_map V u) = rhs eg (V q) (option_map V u).
Proof. exact pgal_commutes. Qed.
Print Assumptions C64_model_galerkin.

(* C64: the copy of an affine operator, with or without operator matrices, is the operator again: class, coefficient functions, number of terms, parameter dimension and entries. *)
Theorem C64_affine_copied :
  forall r m a,
  0 < r -> (a_entries a = None \/ exists ops, affine_of r m a ops) -> aff_copy a = Ok a.
Proof. exact aff_copy_same. Qed.
Print Assumptions C64_affine_copied.

(* C64: projecting a model replaces an affine operator by one with the same class, coefficient functions and number of terms; an operator without entries stays as it is, parameter dimension included, and one with entries loses its parameter dimension. *)
Theorem C64_affine_projected :
  forall X solve junk a Vr Wr o,
  pop_galerkin X solve junk (PAff a) Vr Wr = Ok o ->
  exists b, o = PAff b /\ a_cls b = a_cls a /\ a_theta b = a_theta a /\ a_nterms b = a_nterms a /\
    (a_entries a = None -> b = a) /\ (a_entries a <> None -> a_pdim b = None /\ a_entries b <> None).
Proof. exact pop_galerkin_affine. Qed.
Print Assumptions C64_affine_projected.

(* C64: interpolating existing operators gives them back at the training parameters. *)
Theorem C64_from_operators :
  forall X n m c p ps C ops,
  0 < n -> family n m c ops -> points p ps -> length ops = length ps -> interpolates C ps (PS 0) ->
  exists t, i_from_operators X c ps (map (as_mop c) ops) (Some C) = Ok t /\ i_cls t = c /\ interpolated n m t ps p C ops /\
  forall i, i < length ps -> i_evaluate t (nth i ps (PS 0)) = Ok (nth i ops (OConst [])).
Proof. exact from_operators_user. Qed.
Print Assumptions C64_from_operators.

(* C64: also with the default class, whatever the order of the training parameters. *)
Theorem C64_from_operators_default :
  forall X n m c xs ops,
  (forall xs, 2 <= length xs -> strictly_inc xs -> interpolates (px_cubic X) (map PS xs) (PS 0)) ->
  0 < n -> family n m c ops -> NoDup xs -> 2 <= length xs -> length ops = length xs ->
  exists t, i_from_operators X c (map PS xs) (map (as_mop c) ops) None = Ok t /\
  forall i, i < length xs -> i_evaluate t (PS (vget xs i)) = Ok (nth i ops (OConst [])).
Proof. exact from_operators_default. Qed.
Print Assumptions C64_from_operators_default.

(* C64: an operator of another class or without entries is refused. *)
Theorem C64_from_operators_rejects :
  forall X c ps pre o post ic,
  (mo_cls o <> c -> i_from_operators X c ps (map (as_mop c) pre ++ o :: post) ic = Err TypeError) /\
  (mo_cls o = c -> mo_ent o = None -> i_from_operators X c ps (map (as_mop c) pre ++ o :: post) ic = Err ValueError).
Proof. exact from_operators_rejects. Qed.
Print Assumptions C64_from_operators_rejects.

(* C64: interpolating existing models gives, at each training parameter, a model with the operators of the model given there. *)
Theorem C64_from_models :
  forall X r m p cs ds ps C k,
  0 < r -> aligned r m cs ds -> length ds = length ps -> points p ps -> cs <> [] ->
  ~ In (CPoly Quartic) cs -> interpolates C ps (PS 0) ->
  exists d, i_from_models X k ps ds (Some C) = Ok d /\ map pcls (pm_ops (im_base d)) = cs /\
    forall i, i < length ps -> exists e, snd (pevaluate (im_base d) (nth i ps (PS 0))) = Ok e /\ m_kind e = k /\ forall d0, m_ops e = m_ops (nth i ds d0).
Proof. exact from_models_user. Qed.
Print Assumptions C64_from_models.

(* C64: also with the default class, whatever the order of the training parameters. *)
Theorem C64_from_models_default :
  forall X r m cs ds xs k,
  (forall xs, 2 <= length xs -> strictly_inc xs -> interpolates (px_cubic X) (map PS xs) (PS 0)) ->
  0 < r -> aligned r m cs ds -> length ds = length xs -> NoDup xs -> 2 <= length xs -> cs <> [] -> ~ In (CPoly Quartic) cs ->
  exists d, i_from_models X k (map PS xs) ds None = Ok d /\ map pcls (pm_ops (im_base d)) = cs /\
    forall i, i < length xs -> exists e, snd (pevaluate (im_base d) (PS (vget xs i))) = Ok e /\ m_kind e = k /\ forall d0, m_ops e = m_ops (nth i ds d0).
Proof. exact from_models_default. Qed.
Print Assumptions C64_from_models_default.

(* C64: a model with other operators than those of the first, and one that is not trained, are refused. *)
Theorem C64_from_models_rejects :
  forall X k ps r m cs pre d post ic,
  pre <> [] -> aligned r m cs pre ->
  (map mo_cls (m_ops d) <> cs -> i_from_models X k ps (pre ++ d :: post) ic = Err ValueError) /\
  (map mo_cls (m_ops d) = cs -> check_trained d = Err AttributeError -> i_from_models X k ps (pre ++ d :: post) ic = Err AttributeError).
Proof. exact from_models_misaligned. Qed.
Print Assumptions C64_from_models_rejects.

(* C64: also if it is the first one. *)
Theorem C64_from_models_untrained :
  forall X k ps d post ic,
  check_trained d = Err AttributeError -> i_from_models X k ps (d :: post) ic = Err AttributeError.
Proof. exact from_models_first. Qed.
Print Assumptions C64_from_models_untrained.

(* ---- the hypotheses can be met ---- *)
(* straight lines between the values at 0 and at 1 *)
Definition lineC : iclass := fun _ es => Ok (fun p =>
  if Req_EM_T (unscalar p) 0 then Ok (nth 0 es []) else if Req_EM_T (unscalar p) 1 then Ok (nth 1 es [])
  else Ok (lincomb [1 - unscalar p; unscalar p]%R es)).
Definition at01 : list pval := [PS 0; PS 1].
Lemma lineC_interpolates : interpolates lineC at01 (PS 0).
Proof. intros es HL. eexists. split; [reflexivity|]. intros [|[|i]] Hi; cbn; [| |cbn in Hi; lia].
  - destruct (Req_EM_T 0 0); [reflexivity|congruence].
  - destruct (Req_EM_T 1 0); [lra|]. destruct (Req_EM_T 1 1); [reflexivity|congruence]. Qed.
Lemma lineC_linear x : x <> 0%R -> x <> 1%R -> linear_at lineC at01 (PS x) [1 - x; x]%R.
Proof. intros H0 H1. split; [reflexivity|]. intros a b Es HL HF. do 2 eexists. split; [reflexivity|]. cbn [unscalar].
  destruct (Req_EM_T x 0); [congruence|]. destruct (Req_EM_T x 1); [congruence|]. split; [reflexivity|].
  destruct (lincomb_ok a b [1 - x; x]%R Es) as [S1 S2]; auto. { destruct Es; [discriminate|congruence]. }
  split; auto. intros i j _ _. rewrite S2, HL. reflexivity. Qed.
Definition A0 : op := OLin [[2; 1]; [0; 3]]%R.
Definition A1 : op := OLin [[4; 0]; [5; 1]]%R.
Definition X64 : pext := {| px_l := {| x_lstsq := fun _ _ _ => Err LinAlgError; x_lsvd := fun _ => Err LinAlgError; x_lsolve := fun _ _ => Err LinAlgError |};
  px_cubic := toy; px_linnd := lineC |}.
Definition t64 : itp := {| i_cls := CLin; i_pdim := Some 1; i_params := Some at01; i_entries := Some [A0; A1];
  i_interp := Some (fun p => if Req_EM_T (unscalar p) 0 then Ok (entries2 A0) else if Req_EM_T (unscalar p) 1 then Ok (entries2 A1)
                    else Ok (lincomb [1 - unscalar p; unscalar p]%R (map entries2 [A0; A1]))); i_iclass := Some lineC |}.
Lemma fam64 : family 2 1 CLin [A0; A1]. Proof. repeat constructor. Qed.
Lemma pts64 : points 1 at01. Proof. split; [discriminate|]. repeat constructor. Qed.
Lemma made64 : i_init (px_cubic X64) (px_linnd X64) CLin at01 (map entries2 [A0; A1]) (Some lineC) = Ok t64.
Proof. exact (init_user (px_cubic X64) (px_linnd X64) 2 1 CLin 1 at01 lineC [A0; A1] _ ltac:(lia) fam64 pts64 eq_refl eq_refl). Qed.
Lemma is64 : interpolated 2 1 t64 at01 1 lineC [A0; A1].
Proof. exact (proj2 (init_interpolated (px_cubic X64) (px_linnd X64) 2 1 CLin 1 at01 lineC [A0; A1] t64 ltac:(lia) fam64 pts64 eq_refl made64)). Qed.
Definition solve64 : mat -> mat -> res mat := fun _ _ => Err LinAlgError.
Lemma solve64_ok : solve_spec solve64. Proof. unfold solve_spec, solve64. intros. discriminate. Qed.
Definition junk64 (k : nat) : vec := repeat 0%R k.
Definition V64 : mat := [[1]; [0]]%R.
Lemma V64_shape : is_mat 2 1 V64. Proof. split; repeat constructor. Qed.
Lemma V64_ortho : matmul (mT V64) V64 = eye 1. Proof. cbn. do 2 f_equal. ring. Qed.
Lemma gal64 : exists tg, i_galerkin X64 solve64 junk64 t64 V64 None = Ok tg.
Proof. apply (igal_defined X64 solve64 junk64 2 1 1 V64 None solve64_ok (fun k => repeat_length 0%R k) ltac:(lia) ltac:(lia) ltac:(lia) V64_shape V64_shape (or_introl V64_ortho) t64 at01 1 lineC [A0; A1] is64 lineC_interpolates).
  intros o Ho. assert (Hw : wf_op 2 1 o) by (destruct Ho as [<-|[<-|[]]]; split; repeat constructor).
  apply (galerkin_total solve64 junk64 2 1 1 o V64 None solve64_ok (fun k => repeat_length 0%R k) ltac:(lia) ltac:(lia) ltac:(lia) Hw V64_shape V64_shape (or_introl V64_ortho) (or_introl V64_ortho)).
  intros d H ->. destruct Ho as [E|[E|[]]]; discriminate. Qed.
Example C64_example : i_init (px_cubic X64) (px_linnd X64) CLin at01 (map entries2 [A0; A1]) (Some lineC) = Ok t64 /\ interpolated 2 1 t64 at01 1 lineC [A0; A1] /\
  interpolates lineC at01 (PS 0) /\ linear_at lineC at01 (as_point 1 (PS (/ 4))) [1 - / 4; / 4]%R /\ solve_spec solve64 /\ is_mat 2 1 V64 /\ matmul (mT V64) V64 = eye 1 /\
  is_mat 1 1 [[1]]%R /\ matmul [[1]]%R (matmul (mT V64) V64) = eye 1 /\ exists tg, i_galerkin X64 solve64 junk64 t64 V64 None = Ok tg.
Proof. split; [exact made64|]. split; [exact is64|]. split; [exact lineC_interpolates|]. split; [apply lineC_linear; lra|]. split; [exact solve64_ok|]. split; [exact V64_shape|]. split; [exact V64_ortho|].
  split; [split; repeat constructor|]. split; [rewrite V64_ortho; cbn; do 2 f_equal; ring|exact gal64]. Qed.
(* a parametric model with that operator *)
Definition d64 : pmodel := {| pm_kind := KContinuous; pm_ops := [PItp t64]; pm_infer := []; pm_known := [0]; pm_hasin := false; pm_r := Some 2; pm_m := Some 0; pm_p := Some 1; pm_s := None;
  pm_intrusive := true; pm_solver := None |}.
Example C64_example_model : pmk_model KContinuous [POp (PItp t64)] SNone = Ok d64 /\ pm_ops d64 <> [] /\ Forall (ready 2 1 (PS (/ 4))) (pm_ops d64) /\
  exists dg, pgalerkin X64 solve64 junk64 d64 V64 None = Ok dg.
Proof. split; [reflexivity|]. split; [discriminate|]. split.
  - constructor; [|constructor]. cbn. exists at01, 1, lineC, [A0; A1], [1 - / 4; / 4]%R. split; [exact is64|]. split; [reflexivity|]. apply lineC_linear; lra.
  - destruct gal64 as [tg E]. unfold pgalerkin. cbn [pm_ops d64 mapM pop_galerkin puncal pentries t64 i_entries]. rewrite E. cbn [bind].
    destruct (igal_inv X64 solve64 junk64 2 1 1 V64 None solve64_ok (fun k => repeat_length 0%R k) ltac:(lia) ltac:(lia) ltac:(lia) V64_shape V64_shape (or_introl V64_ortho) t64 at01 1 lineC [A0; A1] tg is64 E) as (gs & _ & Hc & (He & HF & HL & _ & _ & Hp & _)).
    destruct (imk_trained 1 1 1 KContinuous ltac:(lia) [PItp tg]) as (d & D1 & _); [discriminate| |].
    { intros o [<-|[]]. destruct gs as [|g gs]; [discriminate|]. apply Forall_inv in HF. destruct HF as [F1 F2]. exists tg, g, gs. auto. }
    cbn [map] in D1. unfold imk_model in D1. cbn [forallb iparg_ok negb andb] in D1. cbn [map pm_kind d64]. destruct (pmk_model _ _ _) as [x|]; [eauto|discriminate]. Qed.
(* the default class, training parameters in decreasing order *)
Example C64_example_unsorted : exists cubic : iclass,
  (forall xs, 2 <= length xs -> strictly_inc xs -> interpolates cubic (map PS xs) (PS 0)) /\
  (forall xs es, ~ strictly_inc xs -> cubic (map PS xs) es = Err ValueError) /\
  NoDup [1; 0]%R /\ ~ strictly_inc [1; 0]%R /\ family 1 1 CLin [OLin [[1%R]]; OLin [[2%R]]].
Proof. exact toy_cubic. Qed.
(* two trained models of one linear operator *)
Definition mdl (o : op) : model := {| m_kind := KContinuous; m_frozen := true; m_ops := [{| mo_cls := CLin; mo_ent := Some o |}]; m_infer := []; m_known := [0]; m_hasin := false;
  m_r := Some 2; m_m := Some 0; m_intrusive := true; m_solver := None |}.
Example C64_example_models : aligned 2 1 [CLin] [mdl A0; mdl A1] /\ length [mdl A0; mdl A1] = length at01 /\ points 1 at01 /\ interpolates lineC at01 (PS 0) /\
  mk_model KContinuous true [AOp {| mo_cls := CLin; mo_ent := Some A0 |}] SNone = Ok (mdl A0).
Proof. split; [|split; [reflexivity|split; [exact pts64|split; [exact lineC_interpolates|reflexivity]]]].
  assert (K : forall o, In o [A0; A1] -> Forall (fun o => exists e, mo_ent o = Some e /\ cls_of e = mo_cls o /\ wf_op 2 1 e) (m_ops (mdl o))).
  { intros o [<-|[<-|[]]]; constructor; try constructor; eexists; (split; [reflexivity|]); (split; [reflexivity|]); split; repeat constructor. }
  constructor; [|constructor; [|constructor]]; (split; [reflexivity|]); (split; [reflexivity|]); apply K; cbn; auto. Qed.

(* an affine operator of two terms, with and without entries *)
Definition aff64 (l : option (list op)) : aff := {| a_cls := CLin; a_theta := fun mu => match mu with PS x => TV [1; x]%R | PV v => TV v end; a_nterms := 2; a_pdim := Some 1; a_entries := l |}.
Example C64_example_affine : (a_entries (aff64 None) = None \/ exists ops, affine_of 2 1 (aff64 None) ops) /\ affine_of 2 1 (aff64 (Some [A0; A1])) [A0; A1] /\
  (exists o, pop_galerkin X64 solve64 junk64 (PAff (aff64 None)) V64 None = Ok o) /\ exists o, pop_galerkin X64 solve64 junk64 (PAff (aff64 (Some [A0; A1]))) V64 None = Ok o.
Proof. split; [left; reflexivity|]. assert (HA : affine_of 2 1 (aff64 (Some [A0; A1])) [A0; A1]).
  { split; [reflexivity|]. split; [constructor; [|constructor; [|constructor]]; (split; [split; repeat constructor|reflexivity])|]. split; [reflexivity|cbn; lia]. }
  split; [exact HA|]. split; [eexists; reflexivity|].
  destruct gal64 as [tg E].
  destruct (igal_inv X64 solve64 junk64 2 1 1 V64 None solve64_ok (fun k => repeat_length 0%R k) ltac:(lia) ltac:(lia) ltac:(lia) V64_shape V64_shape (or_introl V64_ortho) t64 at01 1 lineC [A0; A1] tg is64 E) as (gs & HG & Hc & (He & HF & HL & _ & _ & Hp & _)).
  cbn [pop_galerkin puncal pentries aff64 a_entries]. unfold aff_galerkin. cbn [aff64 a_entries]. rewrite (proj2 (mapM_Forall2 _ [A0; A1] gs) HG). cbn [bind].
  rewrite (aff_set_ok 1 1); [eexists; reflexivity|lia| |]. - rewrite Hc in HF. exact HF. - exact HL. Qed.

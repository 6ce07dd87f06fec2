(* Prop_PGen.v -- property C74 (parametric models made of operators of any class). *)
From Coq Require Import String ZArith Reals Lra Lia List.
From Verif Require Import LinAlg MatAlg OpsProofs PolyOpProofs MonoEx GenProofs GenMain GenClasses PGenProofs PGenMain PGenClasses PGenFresh PGenForget.
From Verif Require Import SpecPGen.
#[local] Open Scope nat_scope.
#[local] Open Scope list_scope.

(* C74: whatever the classes of the operators, as long as each is what its author says (E phi(q, u), or E psi(mu, q, u) for parametric ones), fit() that returns (and refit() with a new regularizer) gives the operators to be learned the matrices with the smallest misfit over all training parameters and snapshots plus penalty, leaves the others alone, and rhs(mu, q, u) is the sum of the operators at mu. *)
Theorem C74_fit_is_best :
  forall X r m args xs mus states lhs inputs ks Qs Zs Us d',
  lsx_ok X -> 0 < r -> Forall2 (ydescribed r m) args xs -> y_some_unknown args ->
  ydata r m args mus states lhs inputs ks Qs Zs Us -> ysession X r m args mus states lhs inputs d' ->
  ylearns r m args xs mus ks Qs Zs Us d'.
Proof. exact ysession_learns. Qed.
Print Assumptions C74_fit_is_best.

(* C74: fit() leaves the regularizer of the solver alone. *)
Theorem C74_fit_keeps_regularizer :
  forall X r m args xs d mus states lhs inputs ks Qs Zs Us d',
  lsx_ok X -> 0 < r -> Forall2 (ydescribed r m) args xs -> y_some_unknown args ->
  yreach X r m args d -> ydata r m args mus states lhs inputs ks Qs Zs Us -> yfit X d mus states lhs inputs = Ok d' ->
  exists s s', ym_solver d = Some s /\ ym_solver d' = Some s' /\ forall w, penalty s' w = penalty s w.
Proof. exact yfit_keeps_penalty. Qed.
Print Assumptions C74_fit_keeps_regularizer.

(* C74: at a training parameter the value of the model is the one whose misfit was minimized. *)
Theorem C74_value_at_training_parameters :
  forall r m mus i args xs Es q u row,
  Forall2 (ydescribed r m) args xs -> i < length mus -> Forall2 (y_defined mus (param mus i)) args xs -> is_vec r q -> is_vec m u ->
  yvalue_at mus (param mus i) xs Es q u row = yvalue mus i xs Es q u row.
Proof. exact value_at_training. Qed.
Print Assumptions C74_value_at_training_parameters.

(* C74: fit() never returns if entries were given for an interpolated operator while others are to be learned. *)
Theorem C74_known_interpolated :
  forall X r m args xs d mus states lhs inputs,
  lsx_ok X -> 0 < r -> Forall2 (ydescribed r m) args xs -> y_some_unknown args -> yreach X r m args d ->
  (exists a E, In a args /\ ya_ent a = Some E /\ y_itp (ya_cls a) = true) -> forall d', yfit X d mus states lhs inputs <> Ok d'.
Proof. exact known_itp_fails. Qed.
Print Assumptions C74_known_interpolated.

(* C74: an affine operator over any class of the form asked for, with any n coefficient functions, is of the form asked for: (sum_l theta_l(mu) E_l) phi(q, u). *)
Theorem C74_affine_class :
  forall r m c g n theta,
  0 < r -> 0 < n -> lawful r m c g -> (forall mu th, theta mu = Ok th -> length th = n) -> plawful r m (aff_cls c n theta) (aff_feature g n theta).
Proof. exact aff_plawful. Qed.
Print Assumptions C74_affine_class.

(* C74: in particular with coefficients given as a number p: theta(mu) = mu. *)
Theorem C74_affine_identity_class :
  forall r m c g p,
  0 < r -> 0 < p -> lawful r m c g -> plawful r m (aff_cls c p (theta_id p)) (aff_feature g p (theta_id p)).
Proof. exact identity_plawful. Qed.
Print Assumptions C74_affine_identity_class.

(* C74: so is an interpolated operator over any such class, with any interpolation that is linear in the data: (sum_l ell_l(mu) E_l) phi(q, u). *)
Theorem C74_interpolated_class :
  forall r m c g C dom ell,
  0 < r -> lawful r m c g -> linear_interp C dom ell -> plawful r m (itp_cls c C) (itp_feature g dom ell).
Proof. exact itp_plawful. Qed.
Print Assumptions C74_interpolated_class.

(* C74: and one with any interpolation that reproduces the data, linear or not, at the training parameters. *)
Theorem C74_exact_interpolation_class :
  forall r m c g C good,
  0 < r -> lawful r m c g -> exact_interp C good -> plawful r m (itp_cls c C) (itp_feature g (one_of_them good) one_hot).
Proof. exact exact_plawful. Qed.
Print Assumptions C74_exact_interpolation_class.

(* C74: if the parametric operators with given entries know their parameter dimension, fit() of a model with any history of fits, refits and regularizers does what fit() of a new model with the same operators and solver does: the same model or the same error. *)
Theorem C74_fit_forgets :
  forall X r m args d,
  y_some_unknown args -> self_sized args -> yreach X r m args d ->
  exists d0, ymk args (ym_solver d) = Ok d0 /\ forall mus states lhs inputs, yfit X d mus states lhs inputs = yfit X d0 mus states lhs inputs.
Proof. exact fit_forgets. Qed.
Print Assumptions C74_fit_forgets.

(* C74 (False without that condition, and refuted): a known affine operator with a function for its coefficients takes the parameter dimension of the first data; a later fit() with parameters of another dimension raises although a new model accepts the data. *)
Theorem C74_fit_forgets_refuted :
  exists X r m args d d0 mus states lhs ks Qs Zs Us d', lsx_ok X /\ y_some_unknown args /\ (exists xs, Forall2 (ydescribed r m) args xs) /\
  yreach X r m args d /\ ymk args (ym_solver d) = Ok d0 /\ ydata r m args mus states lhs None ks Qs Zs Us /\
  yfit X d mus states lhs None = Err DimensionalityError /\ yfit X d0 mus states lhs None = Ok d'.
Proof. exact fit_remembers. Qed.
Print Assumptions C74_fit_forgets_refuted.

(* C74: fit() never returns if the parameters do not have the dimension of a parametric operator with given entries. *)
Theorem C74_fit_wrong_dimension :
  forall X r m args d a E p p' mus states lhs inputs,
  y_some_unknown args -> yreach X r m args d -> In a args -> y_par (ya_cls a) = true -> ya_ent a = Some E -> ya_p a = Some p ->
  params_dim mus = Ok p' -> p' <> p -> forall d', yfit X d mus states lhs inputs <> Ok d'.
Proof. exact fit_wrong_dimension. Qed.
Print Assumptions C74_fit_wrong_dimension.

(* C74: after fit(), and any refits, rhs() never returns for a parameter with another number of components than the training parameters. *)
Theorem C74_rhs_wrong_dimension :
  forall X r m args xs mus states lhs inputs ks Qs Zs Us d' a p mu q u,
  lsx_ok X -> 0 < r -> Forall2 (ydescribed r m) args xs -> y_some_unknown args ->
  ydata r m args mus states lhs inputs ks Qs Zs Us -> ysession X r m args mus states lhs inputs d' -> In a args -> y_par (ya_cls a) = true -> params_dim mus = Ok p -> plen mu <> p ->
  forall y, yrhs d' mu q u <> Ok y.
Proof. exact rhs_wrong_dimension. Qed.
Print Assumptions C74_rhs_wrong_dimension.

(* C74: the constructor raises ValueError for two operators of the same kind, parametric or not, that are both to be learned. *)
Theorem C74_duplicate :
  forall args s i j a b,
  i < j -> nth_error args i = Some a -> nth_error args j = Some b -> ya_ent a = None -> ya_ent b = None -> y_type (ya_cls a) = y_type (ya_cls b) ->
  ymk args s = Err ValueError.
Proof. exact ymk_duplicate. Qed.
Print Assumptions C74_duplicate.

(* an interpolator class: the straight line through two points *)
Definition line_interp : iclass := fun ps es =>
  match ps, es with
  | [PS x0; PS x1], [A0; A1] => if Req_EM_T x0 x1 then Err ValueError else
      Ok (fun mu => match mu with PS x => Ok (madd (mscale ((x1 - x) / (x1 - x0)) A0) (mscale ((x - x0) / (x1 - x0)) A1)) | PV _ => Err TypeError end)
  | _, _ => Err ValueError
  end.
Definition line_dom (mus : list pval) (mu : pval) : Prop := exists x0 x1 x, mus = [PS x0; PS x1] /\ x0 <> x1 /\ mu = PS x.
Definition line_weight (mus : list pval) (mu : pval) (l : nat) : R :=
  match mus, mu, l with
  | [PS x0; PS x1], PS x, 0 => ((x1 - x) / (x1 - x0))%R
  | [PS x0; PS x1], PS x, 1 => ((x - x0) / (x1 - x0))%R
  | _, _, _ => 0%R
  end.
Example C74_linear_interpolation : linear_interp line_interp line_dom line_weight.
Proof. constructor.
  - intros r w mus mu es _ (x0 & x1 & x & -> & Hx & ->) Hl HF. destruct es as [|A0 [|A1 [|]]]; try discriminate. inversion HF as [|? ? H0 HF1]; subst. inversion HF1 as [|? ? H1 _]; subst.
    cbn. destruct (Req_EM_T x0 x1); [congruence|]. eexists _, _. split; [reflexivity|]. split; [reflexivity|]. split; [mt|]. intros i b Hi Hb.
    rewrite (mget_madd r w) by mt. rewrite !(mget_mscale r w) by auto. cbn [length bsum line_weight nth]. unfold mget. ring.
  - intros mus i l Hi Hl (x0 & x1 & x & -> & Hx & E). assert (x1 - x0 <> 0)%R by lra. destruct i as [|[|i]]; cbn in Hi; try lia; cbn in E; injection E as <-;
    (destruct l as [|[|l]]; cbn in Hl; try lia; cbn; field; auto). Qed.
Example C74_interpolated_class_example : plawful 2 1 (itp_cls (lib_cls (CPoly Quadratic)) line_interp) (itp_feature (lib_feature 2 1 (CPoly Quadratic)) line_dom line_weight).
Proof. apply C74_interpolated_class; auto; [apply lib_lawful; lia|apply C74_linear_interpolation]. Qed.
Example C74_exact_interpolation_example : exact_interp line_interp (fun mus => exists x0 x1, mus = [PS x0; PS x1] /\ x0 <> x1).
Proof. intros r w mus es _ (x0 & x1 & -> & Hx) Hl HF. destruct es as [|A0 [|A1 [|]]]; try discriminate. inversion HF as [|? ? H0 HF1]; subst. inversion HF1 as [|? ? H1 _]; subst.
  cbn. destruct (Req_EM_T x0 x1); [congruence|]. eexists. split; [reflexivity|]. assert (x1 - x0 <> 0)%R by lra. intros [|[|i]] Hi; cbn in Hi; try lia; cbn; f_equal;
  (apply (mat_ext r w); try mt; intros a b Ha Hb; rewrite (mget_madd r w) by mt; rewrite !(mget_mscale r w) by auto; field; auto). Qed.

(* f(mu, q) = 3 q + mu x q^2 with 3 known and x to be learned from mu = 1, q = 1, f = 5 *)
Definition pargs : list yarg :=
  [{| ya_cls := YNon (lib_cls CLin); ya_ent := Some [[3]]%R; ya_train := None; ya_p := None |};
   {| ya_cls := YPar (aff_cls (poly_cls 2) 1 (theta_id 1)); ya_ent := None; ya_train := None; ya_p := Some 1 |}].
Definition pdescs : list ydesc :=
  [Given (fun _ q u i => term (lib_feature 1 1 CLin) [[3]]%R q u i); Learn (aff_feature (poly_feature 1 2) 1 (theta_id 1))].
Definition pmodel (x : option mat) (s : option nat) (v : lsq) : ymodel :=
  {| ym_ops := [{| yo_cls := YNon (lib_cls CLin); yo_ent := Some [[3]]%R; yo_train := None; yo_p := None; yo_known := true |};
                {| yo_cls := YPar (aff_cls (poly_cls 2) 1 (theta_id 1)); yo_ent := x; yo_train := None; yo_p := Some 1; yo_known := false |}];
     ym_hasin := false; ym_r := Some 1; ym_m := Some 0; ym_p := Some 1; ym_s := s; ym_solver := Some v |}.
Lemma pone (x : R) : is_mat 1 1 [[x]]. Proof. split; repeat constructor. Qed.
Example C74_described : Forall2 (ydescribed 1 1) pargs pdescs /\ y_some_unknown pargs /\
  ydata 1 1 pargs [PS 1%R] [V [1]%R] [V [5]%R] None [1] [[[1]]]%R [[[5]]]%R [[[0]]]%R.
Proof. split; [|split].
  - constructor; [|constructor; [|constructor]]; cbn.
    + exists (lib_feature 1 1 CLin). split; [apply lib_lawful; auto|]. split; [apply pone|auto].
    + apply aff_plawful; auto; [apply poly_lawful; auto|]. apply theta_id_len.
  - eexists. split; [right; left; reflexivity|reflexivity].
  - constructor; try discriminate; auto; try (split; auto); try (constructor; [split; [lia|apply pone]|constructor]).
    intros (a & [<-|[<-|[]]] & Hi); discriminate. Qed.
Example C74_fit_example : lsx_ok X0 /\ ymk pargs None = Ok (pmodel None None new_plain) /\ yreach X0 1 1 pargs (pmodel None None new_plain) /\
  yfit X0 (pmodel None None new_plain) [PS 1%R] [V [1]%R] [V [5]%R] None = Ok (pmodel (Some [[2]]%R) (Some 1) s12) /\
  ysession X0 1 1 pargs [PS 1%R] [V [1]%R] [V [5]%R] None (pmodel (Some [[2]]%R) (Some 1) s12) /\
  Forall2 (y_defined [PS 1%R] (PS 10%R)) pargs pdescs /\ yrhs (pmodel (Some [[2]]%R) (Some 1) s12) (PS 10%R) (V [4]%R) None = Ok (V [332]%R).
Proof. assert (N1 : ymk pargs None = Ok (pmodel None None new_plain)) by reflexivity.
  assert (R1 : yreach X0 1 1 pargs (pmodel None None new_plain)) by (apply (yr_new X0 1 1 pargs None); [discriminate|auto]).
  assert (F : yfit X0 (pmodel None None new_plain) [PS 1%R] [V [1]%R] [V [5]%R] None = Ok (pmodel (Some [[2]]%R) (Some 1) s12)).
  { unfold yfit. change (yintrusive (pmodel None None new_plain)) with false. cbn iota.
    assert (E : exists x, x = (3 * 1)%R /\ yprocess (pmodel None None new_plain) [PS 1%R] [V [1]%R] [V [5]%R] None = Ok (pmodel None None new_plain, [[[1]]]%R, [[[5 - x]]]%R, [None])).
    { eexists. split; [|reflexivity]. cbn. ring. }
    destruct E as (x & Ex & E). rewrite E. cbn [bind].
    change (params_dim [PS 1%R]) with (@Ok nat 1). cbn [bind]. change (mapM (ytrain [PS 1%R] 1) (ym_ops (pmodel None None new_plain))) with (Ok (ym_ops (pmodel None None new_plain))). cbn [bind].
    assert (EA : exists y, y = 1%R /\ yassemble (ym_ops (pmodel None None new_plain)) [PS 1%R] [[[1]]]%R [None] = Ok [[y]]%R).
    { eexists. split; [|reflexivity]. cbn. ring. }
    destruct EA as (y & Ey & EA). rewrite EA. cbn [bind]. change (hstack_r [[[5 - x]]]%R) with (@Ok mat [[5 - x]]%R). cbn [bind]. cbn [ym_solver pmodel].
    assert (EL : lsq_fit X0 new_plain (M [[y]]%R) (M [[5 - x]]%R) = (plain_of [[y]]%R [[5 - x]]%R, Ok tt)) by reflexivity. rewrite EL.
    replace (plain_of [[y]]%R [[5 - x]]%R) with s12 by (unfold s12; subst; do 3 f_equal; ring). cbn [bind].
    unfold yrefit. change (yintrusive _) with false. cbn iota. cbn [yw_s yw_solver yw_ops ym_solver ym_s ym_r ym_ops ym_m pmodel]. rewrite solve12. reflexivity. }
  split; [exact X0_ok|]. split; auto. split; auto. split; auto. split; [eapply ys_fit; eauto|]. split.
  - constructor; [split; [discriminate|exact I]|]. constructor; [|constructor]. cbn. split; [reflexivity|]. eexists. reflexivity.
  - cbn. do 3 f_equal. ring. Qed.
(* known entries in an interpolated operator *)
Definition first_interp : iclass := fun _ es => Ok (fun _ => Ok (nth 0 es [])).
Example C74_known_interpolated_example :
  exists args xs d, Forall2 (ydescribed 1 1) args xs /\ y_some_unknown args /\ yreach X0 1 1 args d /\ exists a E, In a args /\ ya_ent a = Some E /\ y_itp (ya_cls a) = true.
Proof. set (a := {| ya_cls := YPar (itp_cls (lib_cls CLin) first_interp); ya_ent := Some [[1; 2]]%R; ya_train := Some [PS 0%R; PS 1%R]; ya_p := Some 1 |}).
  set (b := {| ya_cls := YNon (lib_cls CConst); ya_ent := None; ya_train := None; ya_p := None |}).
  exists [a; b], [Given (fun _ q u i => term (lib_feature 1 1 CLin) [[1]]%R q u i); Learn (non_feature (lib_feature 1 1 CConst))]. eexists. split; [|split; [|split]].
  - constructor; [|constructor; [|constructor]].
    + cbn [ydescribed ya_cls ya_ent ya_train a]. intros mu x E. exists (lib_feature 1 1 CLin). cbn in E. injection E as <-. cbn [fst snd].
      split; [apply lib_lawful; auto|]. split; [apply pone|]. split; auto.
    + cbn. exists (lib_feature 1 1 CConst). split; [apply lib_lawful; auto|reflexivity].
  - exists b. split; [right; left; reflexivity|reflexivity].
  - apply (yr_new X0 1 1 [a; b] None); [discriminate|reflexivity].
  - exists a, [[1; 2]]%R. split; [left; reflexivity|split; reflexivity]. Qed.

(* the model of the example above knows nothing of its first fit *)
Example C74_fit_forgets_example : self_sized pargs /\ y_some_unknown pargs /\ yreach X0 1 1 pargs (pmodel (Some [[2]]%R) (Some 1) s12) /\
  exists a, In a pargs /\ y_par (ya_cls a) = true /\ params_dim [PS 1%R] = Ok 1 /\ plen (PV [1; 2]%R) <> 1.
Proof. split; [|split; [apply C74_described|split]].
  - intros a E [<-|[<-|[]]]; cbn; discriminate.
  - destruct C74_fit_example as (_ & _ & HR & HF & _). eapply yr_fit; [exact HR|apply C74_described|exact HF].
  - eexists. split; [right; left; reflexivity|]. repeat split. cbn. discriminate. Qed.
Example C74_fit_wrong_dimension_example : exists args d a E, y_some_unknown args /\ yreach X0 1 1 args d /\ In a args /\ y_par (ya_cls a) = true /\ ya_ent a = Some E /\ ya_p a = Some 1 /\
  params_dim [PV [1; 2]%R] = Ok 2 /\ self_sized args.
Proof. set (a := {| ya_cls := YPar (aff_cls (lib_cls CLin) 1 (theta_id 1)); ya_ent := Some [[3]]%R; ya_train := None; ya_p := Some 1 |}).
  set (b := {| ya_cls := YNon (poly_cls 2); ya_ent := None; ya_train := None; ya_p := None |}).
  exists [a; b]. eexists. exists a, [[3]]%R. split; [exists b; split; [right; left; reflexivity|reflexivity]|]. split; [apply (yr_new X0 1 1 [a; b] None); [discriminate|reflexivity]|].
  split; [left; reflexivity|]. repeat split. intros c E [<-|[<-|[]]]; cbn; discriminate. Qed.
Example C74_duplicate_example : let b c := {| ya_cls := c; ya_ent := None; ya_train := None; ya_p := None |} in
  ymk [b (YPar (aff_cls (poly_cls 2) 1 (theta_id 1))); b (YNon (poly_cls 2))] None = Err ValueError /\
  exists d, ymk [b (YPar (aff_cls (poly_cls 2) 1 (theta_id 1))); b (YNon (lib_cls CLin))] None = Ok d.
Proof. cbn zeta. split; [|eexists; reflexivity]. eapply (C74_duplicate _ None 0 1); [auto|reflexivity|reflexivity|reflexivity|reflexivity|reflexivity]. Qed.

(* PGenForget.v -- a known affine operator whose coefficients are a function takes over the parameter dimension of the first
   fit() and keeps it. *)
From Coq Require Import ZArith String Lra Lia.
From Verif Require Import LinAlg MatAlg MonoEx GenProofs GenMain GenClasses PGenProofs PGenMain PGenClasses SpecPGen.
#[local] Open Scope nat_scope.
#[local] Open Scope list_scope.

Definition theta_one : pval -> res vec := fun _ => Ok [1]%R.
Definition fargs : list yarg :=
  [{| ya_cls := YPar (aff_cls (lib_cls CLin) 1 theta_one); ya_ent := Some [[3]]%R; ya_train := None; ya_p := None |};
   {| ya_cls := YNon (poly_cls 2); ya_ent := None; ya_train := None; ya_p := None |}].
Definition fmodel (x : option mat) (p s : option nat) (v : lsq) : ymodel :=
  {| ym_ops := [{| yo_cls := YPar (aff_cls (lib_cls CLin) 1 theta_one); yo_ent := Some [[3]]%R; yo_train := None; yo_p := p; yo_known := true |};
                {| yo_cls := YNon (poly_cls 2); yo_ent := x; yo_train := None; yo_p := None; yo_known := false |}];
     ym_hasin := false; ym_r := Some 1; ym_m := Some 0; ym_p := p; ym_s := s; ym_solver := Some v |}.
Lemma fone (x : R) : is_mat 1 1 [[x]]. Proof. split; repeat constructor. Qed.
Lemma fdata mu : ydata 1 1 fargs [mu] [V [1]%R] [V [5]%R] None [1] [[[1]]]%R [[[5]]]%R [[[0]]]%R.
Proof. constructor; try discriminate; auto; try (split; auto); try (constructor; [split; [lia|apply fone]|constructor]).
  intros (a & [<-|[<-|[]]] & Hi); discriminate. Qed.
Lemma f_fit mu p : (mu = PS 1%R /\ p = 1) \/ (mu = PV [1; 1]%R /\ p = 2) -> forall v, lsq_fit X0 v (M [[1]]%R) (M [[2]]%R) = (s12, Ok tt) ->
  yfit X0 (fmodel None None None v) [mu] [V [1]%R] [V [5]%R] None = Ok (fmodel (Some [[2]]%R) (Some p) (Some 1) s12).
Proof. intros Hmu v HL. assert (Hp : params_dim [mu] = Ok p) by (destruct Hmu as [[-> ->] | [-> ->]]; reflexivity). unfold yfit. change (yintrusive (fmodel None None None v)) with false. cbn iota.
  assert (E : exists x, x = 2%R /\ yprocess (fmodel None None None v) [mu] [V [1]%R] [V [5]%R] None = Ok (fmodel None (Some p) None v, [[[1]]]%R, [[[x]]]%R, [None])).
  { destruct Hmu as [[-> ->] | [-> ->]]; (eexists; split; [|reflexivity]; cbn; lra). }
  destruct E as (x & -> & ->). cbn [bind]. rewrite Hp. cbn [bind].
  change (mapM (ytrain [mu] p) (ym_ops (fmodel None (Some p) None v))) with (Ok (ym_ops (fmodel None (Some p) None v))). cbn [bind].
  assert (EA : exists y, y = 1%R /\ yassemble (ym_ops (fmodel None (Some p) None v)) [mu] [[[1]]]%R [None] = Ok [[y]]%R).
  { eexists. split; [|reflexivity]. cbn. ring. }
  destruct EA as (y & -> & ->). cbn [bind]. change (hstack_r [[[2]]]%R) with (@Ok mat [[2]]%R). cbn [bind]. cbn [ym_solver fmodel]. rewrite HL. cbn [bind].
  unfold yrefit. change (yintrusive _) with false. cbn iota. cbn [yw_s yw_solver yw_ops ym_solver ym_s ym_r ym_ops ym_m fmodel]. rewrite solve12. reflexivity. Qed.
Lemma fit_remembers : exists X r m args d d0 mus states lhs ks Qs Zs Us d', lsx_ok X /\ y_some_unknown args /\ (exists xs, Forall2 (ydescribed r m) args xs) /\
  yreach X r m args d /\ ymk args (ym_solver d) = Ok d0 /\ ydata r m args mus states lhs None ks Qs Zs Us /\
  yfit X d mus states lhs None = Err DimensionalityError /\ yfit X d0 mus states lhs None = Ok d'.
Proof. exists X0, 1, 1, fargs, (fmodel (Some [[2]]%R) (Some 1) (Some 1) s12), (fmodel None None None s12), [PV [1; 1]%R], [V [1]%R], [V [5]%R], [1], [[[1]]]%R, [[[5]]]%R, [[[0]]]%R,
    (fmodel (Some [[2]]%R) (Some 2) (Some 1) s12).
  split; [exact X0_ok|]. split; [eexists; split; [right; left; reflexivity|reflexivity]|]. split.
  { exists [Given (fun _ q u i => term (lib_feature 1 1 CLin) [[3]]%R q u i); Learn (non_feature (poly_feature 1 2))]. constructor; [|constructor; [|constructor]]; cbn [ydescribed fargs ya_cls ya_ent ya_train].
    - intros mu x E. exists (lib_feature 1 1 CLin). cbn in E. injection E as <-. cbn [fst snd]. split; [apply lib_lawful; auto|]. split; [apply fone|]. split; auto.
      intros q u i _ _ Hi. replace i with 0 by lia. cbn. ring.
    - exists (poly_feature 1 2). split; [apply poly_lawful; auto|reflexivity]. }
  split; [|split; [reflexivity|split; [apply fdata|split; [reflexivity|]]]].
  - eapply yr_fit with (mus := [PS 1%R]); [|apply fdata|].
    + apply (yr_new X0 1 1 fargs None); [discriminate|reflexivity].
    + apply f_fit; auto.
  - apply f_fit; auto. Qed.

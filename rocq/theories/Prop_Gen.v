(* Prop_Gen.v -- property C70 (models made of operators of any class). *)
From Coq Require Import String ZArith Reals Lra Lia List.
From Verif Require Import LinAlg MatAlg OpsProofs PolyOpProofs MonoEx GenProofs GenMain GenClasses.
From Verif Require Import SpecGen.
#[local] Open Scope nat_scope.
#[local] Open Scope list_scope.

(* C70: whatever the classes of the operators, as long as each is E phi(q, u) as its author says, fit() (and refit() with a new regularizer) gives the operators the matrices with the smallest misfit plus penalty, rhs() is the sum of all operators and operator_matrix the learned matrices side by side. *)
Theorem C70_fit_is_best :
  forall X r m k args fs states lhs inputs Q Z U d',
  lsx_ok X -> 0 < r -> 0 < m -> Forall2 (described r m) args fs -> some_unknown args ->
  data r m k args states lhs inputs Q Z U -> gsession X r m args states lhs inputs d' ->
  learns X r m k args fs Q Z U d'.
Proof. exact session_learns. Qed.
Print Assumptions C70_fit_is_best.

(* C70: fit() leaves the regularizer of the solver alone. *)
Theorem C70_fit_keeps_regularizer :
  forall X r m k args fs d states lhs inputs Q Z U d',
  lsx_ok X -> 0 < r -> 0 < m -> Forall2 (described r m) args fs -> some_unknown args ->
  greach X r m args d -> data r m k args states lhs inputs Q Z U -> gfit X d states lhs inputs = Ok d' ->
  exists s s', gm_solver d = Some s /\ gm_solver d' = Some s' /\ forall w, penalty s' w = penalty s w.
Proof. exact fit_keeps_penalty. Qed.
Print Assumptions C70_fit_keeps_regularizer.

(* C70: two models whose operators have the same features, the same known entries and the same solver learn the same entries, have the same right-hand side, or raise the same exception. *)
Theorem C70_same_features :
  forall X r m k args1 args2 fs d1 d2 states lhs inputs1 inputs2 Q Z U,
  lsx_ok X -> 0 < r -> 0 < m ->
  Forall2 (described r m) args1 fs -> Forall2 (described r m) args2 fs -> map snd args1 = map snd args2 -> some_unknown args1 ->
  greach X r m args1 d1 -> greach X r m args2 d2 -> gm_solver d1 = gm_solver d2 ->
  data r m k args1 states lhs inputs1 Q Z U -> data r m k args2 states lhs inputs2 Q Z U ->
  match gfit X d1 states lhs inputs1, gfit X d2 states lhs inputs2 with
  | Ok d1', Ok d2' =>
      map go_ent (gm_ops d1') = map go_ent (gm_ops d2') /\ gm_solver d1' = gm_solver d2' /\ goperator_matrix d1' = goperator_matrix d2' /\
      forall q u ou1 ou2, is_vec r q -> is_vec m u -> (any_inputs args1 -> ou1 = Some (V u)) -> (any_inputs args2 -> ou2 = Some (V u)) ->
        grhs d1' (V q) ou1 = grhs d2' (V q) ou2
  | Err e1, Err e2 => e1 = e2
  | _, _ => False
  end.
Proof. exact same_features_same_fit. Qed.
Print Assumptions C70_same_features.

(* C70: it makes no difference whether a constant, linear, quadratic, cubic or quartic operator is an object of its class or a PolynomialOperator. *)
Theorem C70_polynomial_instead :
  forall X r m k args1 args2 d1 d2 states lhs inputs Q Z U,
  lsx_ok X -> 0 < r -> 0 < m ->
  Forall2 (exchanged r m) args1 args2 -> some_unknown args1 ->
  greach X r m args1 d1 -> greach X r m args2 d2 -> gm_solver d1 = gm_solver d2 -> data r m k args1 states lhs inputs Q Z U ->
  match gfit X d1 states lhs inputs, gfit X d2 states lhs inputs with
  | Ok d1', Ok d2' =>
      map go_ent (gm_ops d1') = map go_ent (gm_ops d2') /\ goperator_matrix d1' = goperator_matrix d2' /\
      forall q u ou, is_vec r q -> is_vec m u -> (any_inputs args1 -> ou = Some (V u)) -> grhs d1' (V q) ou = grhs d2' (V q) ou
  | Err e1, Err e2 => e1 = e2
  | _, _ => False
  end.
Proof. exact polynomial_instead. Qed.
Print Assumptions C70_polynomial_instead.

(* C70: PolynomialOperator of any order is of the form asked for, with all monomials of that degree as features. *)
Theorem C70_polynomial_class :
  forall r m p,
  0 < r -> 0 < m -> lawful r m (poly_cls p) (poly_feature r p).
Proof. exact poly_lawful. Qed.
Print Assumptions C70_polynomial_class.

(* C70: so are the classes of the library, with the features of their documentation. *)
Theorem C70_library_class :
  forall r m c,
  0 < r -> 0 < m -> lawful r m (lib_cls c) (lib_feature r m c).
Proof. exact lib_lawful. Qed.
Print Assumptions C70_library_class.

(* C70: and the features of the classes of order up to 4 are those of PolynomialOperator. *)
Theorem C70_dedicated_class :
  forall r m p c,
  0 < r -> 0 < m -> dedicated p = Some c -> lawful r m (lib_cls c) (poly_feature r p).
Proof. exact dedicated_lawful. Qed.
Print Assumptions C70_dedicated_class.

(* C70: two operators of the same type that are both to be learned make the constructor raise ValueError. *)
Theorem C70_duplicate :
  forall args s i j c1 c2,
  i < j -> nth_error args i = Some (c1, None) -> nth_error args j = Some (c2, None) -> oc_type c1 = oc_type c2 ->
  gmk args s = Err ValueError.
Proof. exact gmk_duplicate. Qed.
Print Assumptions C70_duplicate.

(* C70: if there is no such pair and the known entries fit together, the constructor returns a model with these operators. *)
Theorem C70_constructor_accepts :
  forall r m args fs s,
  Forall2 (described r m) args fs -> args <> [] ->
  (forall i j c1 c2, i < j -> nth_error args i = Some (c1, None) -> nth_error args j = Some (c2, None) -> oc_type c1 <> oc_type c2) ->
  exists d, gmk args s = Ok d /\ map go_ent (gm_ops d) = map snd args /\ map go_cls (gm_ops d) = map fst args.
Proof. exact gmk_accepts. Qed.
Print Assumptions C70_constructor_accepts.

(* C70: a PolynomialOperator is of the same type as another one exactly if the orders are equal, and as an operator of a class of the library exactly if that is the class of its order. *)
Theorem C70_polynomial_types :
  (forall p p', oc_type (poly_cls p) = oc_type (poly_cls p') <-> p = p') /\
  (forall p c, oc_type (poly_cls p) = oc_type (lib_cls c) <-> dedicated p = Some c) /\
  (forall c c', oc_type (lib_cls c) = oc_type (lib_cls c') <-> c = c').
Proof. exact poly_types. Qed.
Print Assumptions C70_polynomial_types.


(* ---- examples ---- *)
(* a class of a user: E (q_1^2, ..., q_r^2) *)
Definition square_cls : ocls := {| oc_type := 40; oc_inputs := false; oc_dim := fun r _ => Ok r; oc_block := fun Q _ => Ok (map (map Rsqr) Q);
  oc_set := fun E => Ok E; oc_indim := fun _ => 0; oc_apply := fun E q _ => matdot E (emap Rsqr q) |}.
Definition square_feature (r : nat) : feature := (r, fun q _ => map Rsqr q).
Lemma square_vec r Q j : is_vec r (map Rsqr (colv r Q j)). Proof. unfold is_vec. rewrite map_length. apply is_vec_colv. Qed.
Lemma square_mat r k Q : is_mat r k Q -> is_mat r k (map (map Rsqr) Q).
Proof. intros H. apply is_mat_map; [apply (is_mat_len _ _ _ H)|]. intros row Hr. unfold is_vec. rewrite map_length. destruct H as [_ H]. rewrite Forall_forall in H. apply H. auto. Qed.
Lemma square_get r k Q i j : is_mat r k Q -> i < r -> j < k -> mget (map (map Rsqr) Q) i j = Rsqr (mget Q i j).
Proof. intros [Hl HF] Hi Hj. unfold mget. rewrite (nth_map_in _ _ _ _ []) by lia. assert (Hr : length (nth i Q []) = k) by (rewrite Forall_forall in HF; apply HF, nth_In; lia).
  rewrite (nth_map_in _ _ _ _ 0%R) by lia. reflexivity. Qed.
Example C70_user_class : forall r m, 0 < r -> 0 < m -> lawful r m square_cls (square_feature r).
Proof. intros r m Hr Hm. constructor; cbn [square_feature fst snd square_cls oc_dim oc_block oc_set oc_inputs oc_apply]; auto; try discriminate.
  - intros k Q U oU Hk HQ HU _. eexists. split; [reflexivity|]. split; [apply square_mat; auto|]. intros j b Hj Hb. rewrite (square_get r k) by auto.
    rewrite vget_map by (rewrite (is_vec_colv r Q j); auto). rewrite vget_colv; auto.
  - intros E q u ou HE Hq Hu _. assert (HV : is_vec r (map Rsqr q)) by (unfold is_vec; rewrite map_length; auto).
    eexists. cbn [matdot emap]. rewrite (matvec_r_ok r r) by auto. split; [reflexivity|]. split; [apply (is_vec_matvec r r); auto|].
    intros i Hi. rewrite (vget_matvec r r) by auto. reflexivity.
  - intros k E Q U oU Hk HE HQ HU _. assert (HV := square_mat r k Q HQ). eexists. cbn [matdot emap]. rewrite (matmul_r_ok r r k) by auto. split; [reflexivity|].
    split; [apply (is_mat_matmul r r k); auto|]. intros i j Hi Hj. rewrite (mget_matmul r r k) by auto. unfold term. cbn [square_feature fst snd]. apply bsum_ext. intros b Hb. f_equal.
    rewrite (square_get r k) by auto. rewrite vget_map by (rewrite (is_vec_colv r Q j); auto). rewrite vget_colv; auto. Qed.

(* f(q) = 3 q + x q^2, with 3 known (as a PolynomialOperator, as a LinearOperator) and x to be learned from q = 1, f = 5 *)
Definition args1 : list garg := [(lib_cls CLin, Some [[3]]%R); (square_cls, None)].
Definition args2 : list garg := [(poly_cls 1, Some [[3]]%R); (square_cls, None)].
Definition gmod (args : list garg) (x : option mat) (r : option nat) (s : lsq) : gmodel :=
  {| gm_ops := match args with [(c1, e1); (c2, _)] => [{| go_cls := c1; go_ent := e1; go_known := true |}; {| go_cls := c2; go_ent := x; go_known := false |}] | _ => [] end;
     gm_hasin := false; gm_r := r; gm_m := Some 0; gm_solver := Some s |}.
Lemma one_mat (x : R) : is_mat 1 1 [[x]]. Proof. split; repeat constructor. Qed.
Example C70_described : Forall2 (described 1 1) args1 [poly_feature 1 1; square_feature 1] /\ Forall2 (described 1 1) args2 [poly_feature 1 1; square_feature 1] /\
  map snd args1 = map snd args2 /\ some_unknown args1 /\ Forall2 (exchanged 1 1) args1 args2.
Proof. assert (HS : described 1 1 (square_cls, None) (square_feature 1)) by (split; [apply C70_user_class; lia|discriminate]).
  split; [|split; [|split; [reflexivity|split; [exists square_cls; right; left; reflexivity|]]]].
  - constructor; [|constructor; auto]. split; [apply (dedicated_lawful 1 1 1 CLin); auto|]. intros E [= <-]. apply one_mat.
  - constructor; [|constructor; auto]. split; [apply poly_lawful; auto|]. intros E [= <-]. apply one_mat.
  - constructor; [|constructor; [left; split; eauto|constructor]]. right. exists 1, CLin, (Some [[3]]%R). split; auto. split; auto. intros E [= <-]. apply one_mat. Qed.
Lemma args_data args : (forall a, In a args -> oc_inputs (fst a) = false) -> data 1 1 1 args (V [1]%R) (V [5]%R) None [[1]]%R [[5]]%R [[0]]%R.
Proof. intros H. constructor; [lia|split; [reflexivity|apply one_mat]|split; [reflexivity|apply one_mat]|apply one_mat|]. intros (a & Ha & Hi). rewrite H in Hi by auto. discriminate. Qed.
Example C70_fit_example : lsx_ok X0 /\ gmk args1 None = Ok (gmod args1 None (Some 1) new_plain) /\ gmk args2 None = Ok (gmod args2 None (Some 1) new_plain) /\
  greach X0 1 1 args1 (gmod args1 None (Some 1) new_plain) /\ greach X0 1 1 args2 (gmod args2 None (Some 1) new_plain) /\
  data 1 1 1 args1 (V [1]%R) (V [5]%R) None [[1]]%R [[5]]%R [[0]]%R /\
  gfit X0 (gmod args1 None (Some 1) new_plain) (V [1]%R) (V [5]%R) None = Ok (gmod args1 (Some [[2]]%R) (Some 1) s12) /\
  gfit X0 (gmod args2 None (Some 1) new_plain) (V [1]%R) (V [5]%R) None = Ok (gmod args2 (Some [[2]]%R) (Some 1) s12) /\
  gsession X0 1 1 args1 (V [1]%R) (V [5]%R) None (gmod args1 (Some [[2]]%R) (Some 1) s12) /\
  grhs (gmod args2 (Some [[2]]%R) (Some 1) s12) (V [4]%R) None = Ok (V [44]%R).
Proof. assert (N1 : gmk args1 None = Ok (gmod args1 None (Some 1) new_plain)) by reflexivity. assert (N2 : gmk args2 None = Ok (gmod args2 None (Some 1) new_plain)) by reflexivity.
  assert (R1 : greach X0 1 1 args1 (gmod args1 None (Some 1) new_plain)) by (apply (gr_new X0 1 1 args1 None); [discriminate|auto]).
  assert (R2 : greach X0 1 1 args2 (gmod args2 None (Some 1) new_plain)) by (apply (gr_new X0 1 1 args2 None); [discriminate|auto]).
  assert (F : forall args x, (args = args1 /\ x = (3 * 1)%R) \/ (args = args2 /\ x = (3 * 1 + 0)%R) ->
    gfit X0 (gmod args None (Some 1) new_plain) (V [1]%R) (V [5]%R) None = Ok (gmod args (Some [[2]]%R) (Some 1) s12)).
  { intros args x Ha. unfold gfit. replace (gintrusive (gmod args None (Some 1) new_plain)) with false by (destruct Ha as [[-> _] | [-> _]]; reflexivity).
    assert (E : gprocess (gmod args None (Some 1) new_plain) (V [1]%R) (V [5]%R) None = Ok (gmod args None (Some 1) new_plain, [[1]]%R, [[5 - x]]%R, None)).
    { destruct Ha as [[-> ->] | [-> ->]]; reflexivity. }
    rewrite E. cbn [bind]. assert (EA : gassemble (gmod args None (Some 1) new_plain) [[1]]%R None = Ok [[Rsqr 1]]%R) by (destruct Ha as [[-> _] | [-> _]]; reflexivity).
    assert (EP : plain_of [[Rsqr 1]]%R [[5 - x]]%R = s12) by (unfold s12; do 3 f_equal; [unfold Rsqr; ring|destruct Ha as [[_ ->] | [_ ->]]; cbn; ring]).
    rewrite EA. cbn [bind gm_solver gmod]. assert (EL : lsq_fit X0 new_plain (M [[Rsqr 1]]%R) (M [[5 - x]]%R) = (plain_of [[Rsqr 1]]%R [[5 - x]]%R, Ok tt)) by reflexivity. rewrite EL, EP. cbn [bind].
    match goal with |- context [grefit X0 ?d] => assert (ER : grefit X0 d = Ok (gmod args (Some [[2]]%R) (Some 1) s12)) end.
    { unfold grefit. replace (gintrusive _) with false by (destruct Ha as [[-> _] | [-> _]]; reflexivity). cbn [gwith_solver gm_solver gm_r gm_ops gm_m gmod].
      rewrite solve12. cbn [bind].
      destruct Ha as [[-> _] | [-> _]]; reflexivity. }
    exact ER. }
  split; [exact X0_ok|]. split; auto. split; auto. split; auto. split; auto. split; [apply args_data; intros a [<-|[<-|[]]]; reflexivity|].
  split; [eapply F; eauto|]. split; [eapply F; eauto|]. split; [eapply gs_fit; [exact R1|eapply F; eauto]|]. cbn. do 3 f_equal. unfold Rsqr. ring. Qed.
Example C70_duplicate_example : gmk [(poly_cls 2, None); (lib_cls CLin, None); (lib_cls (CPoly Quadratic), None)] None = Err ValueError /\
  exists d, gmk [(poly_cls 2, None); (lib_cls (CPoly Quadratic), Some [[1]]%R)] None = Ok d.
Proof. split; [|eexists; reflexivity]. apply (C70_duplicate _ None 0 2 (poly_cls 2) (lib_cls (CPoly Quadratic))); auto. Qed.

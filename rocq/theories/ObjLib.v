(* ObjLib.v -- the operators of the library are operator objects, and their models are models of operator objects. *)
From Coq Require Import ZArith String.
From Verif Require Import LinAlg MatAlg BlockAlg SolverResid OpsProofs TupleFinal JacProofs GalProofs AffProofs MonoVals MonoRhs MonoEq MonoPredict MonoEx.
From Verif Require Export ObjMain.
From Verif Require GenModel.
From Verif Require Import SpecAnyObj.
#[local] Open Scope nat_scope.
#[local] Open Scope list_scope.

(* operators/_nonparametric.py as objects *)
Definition lib_world (solve : mat -> mat -> res mat) (junk : nat -> vec) : world :=
  {| obj := mop;
     w_ent := fun o => Some (match mo_ent o with Some _ => true | None => false end);
     w_type := fun o => GenModel.type_of (mo_cls o);
     w_dim := fun o => option_map op_rows (mo_ent o);
     w_in := fun o => if takes_input o then Some (option_map op_inputs (mo_ent o)) else None;
     w_apply := op_apply;
     w_jac := op_jacobian junk;
     w_galerkin := fun o Vr Wr => match mo_ent o with Some e => do g <- galerkin solve junk e Vr Wr; Ok {| mo_cls := mo_cls o; mo_ent := Some g |} | None => Err AttributeError end;
     w_copy := mop_copy;
     w_eq := mop_eqb |}.
Definition view solve junk (d : model) : omodel (lib_world solve junk) :=
  {| om_kind := m_kind d; om_ops := (m_ops d : list (obj (lib_world solve junk))); om_infer := m_infer d; om_known := m_known d; om_hasin := m_hasin d; om_r := m_r d; om_m := m_m d |}.

Lemma lib_uncal solve junk o : uncal (lib_world solve junk) o = MonoModel.uncal o.
Proof. unfold uncal, MonoModel.uncal. cbn. destruct (mo_ent o); auto. Qed.
Lemma lib_takes solve junk o : takes_in (lib_world solve junk) o = takes_input o.
Proof. unfold takes_in. cbn. destruct (takes_input o); auto. Qed.
Theorem lib_behaves solve junk r m e : 0 < r -> 0 < m -> wf_op r m e ->
  behaves (lib_world solve junk) r m {| mo_cls := cls_of e; mo_ent := Some e |} (fun q u i => vget (matvec (entries2 e) (datavec e q u)) i).
Proof. intros Hr Hm Hw. set (o := {| mo_cls := cls_of e; mo_ent := Some e |}). assert (HS : sized r m o) by (exists e; auto). constructor.
  - rewrite lib_uncal. auto.
  - cbn. f_equal. destruct e; cbn in *; auto; apply (is_mat_nrows _ _ _ Hw).
  - intros x Hx. cbn in Hx. unfold takes_input in Hx. cbn [mo_cls o] in Hx. destruct e; cbn in Hx, Hw; try discriminate; injection Hx as <-; f_equal.
    + apply (ncols_is_mat r); auto.
    + rewrite (ncols_is_mat r (r * m) _ Hw Hr), (is_mat_nrows _ _ _ Hw), Nat.mul_comm. apply Nat.div_mul. lia.
  - intros q u ou Hq (Hu & Hin). rewrite lib_takes in Hin. destruct (op_apply_vec r m o q u ou Hr Hm HS Hq Hu Hin) as (y & E & Hy & Hv). exists y. split; auto. split; auto. intros i Hi. rewrite Hv. auto. Qed.
Lemma jac_noinput junk e q u u' : has_inputs (cls_of e) = false -> jacobian junk e q u = jacobian junk e q u'.
Proof. destruct e; cbn; auto; discriminate. Qed.
Theorem lib_differentiates solve junk r m e : 0 < r -> 0 < m -> wf_op r m e -> (forall k, length (junk k) = k) -> (forall dg H, e = OPoly dg H -> newton_guard dg r) ->
  differentiates (lib_world solve junk) r m {| mo_cls := cls_of e; mo_ent := Some e |} (fun q u i => vget (matvec (entries2 e) (datavec e q u)) i).
Proof. intros Hr Hm Hw Hj HG q u ou Hq (Hu & Hin). rewrite lib_takes in Hin. unfold takes_input in Hin. cbn [mo_cls] in Hin.
  destruct (jacobian_total junk r m e q u Hr Hm Hw Hq Hu HG) as (J & EJ).
  assert (EO : op_jacobian junk {| mo_cls := cls_of e; mo_ent := Some e |} q ou = Ok J).
  { unfold op_jacobian. cbn [mo_ent]. destruct (has_inputs (cls_of e)) eqn:EH.
    - rewrite Hin by auto. auto.
    - destruct ou as [v|]; [rewrite (jac_noinput junk e q v u) by auto; auto|]. rewrite (jac_noinput junk e q [] u) by auto. destruct e; auto; discriminate. }
  exists J. split; [exact EO|]. split. { intros A ->. assert (K := jac_shape r q junk m e u (JMat A) Hw EJ). exact K. }
  intros dir i Hd Hi. destruct (jacobian_derivative junk r m e q u J Hj Hr Hm Hw Hq Hu EJ dir Hd) as (f & Hf & HD). specialize (HD i Hi).
  assert (EV : vget (jac_dir r J dir) i = bsum r (fun j => (jget J i j * vget dir j)%R)).
  { destruct J as [|A]; cbn [jac_dir jget]. - rewrite repeat_vget by auto. symmetry. apply bsum_0. intros; ring. - apply (vget_matvec r r); auto. apply (jac_shape r q junk m e u (JMat A) Hw EJ). }
  rewrite EV in HD. apply (deriv_ext (fun t => vget (f t) i)); auto. intros t. assert (K := Hf t). rewrite (apply_vec r m) in K by (auto; apply is_vec_along; auto). injection K as <-. auto. Qed.
Theorem lib_projects solve junk n r m e Vr Wr : solve_spec solve -> (forall k, length (junk k) = k) -> 0 < n -> 0 < r -> 0 < m -> wf_op n m e -> is_mat n r Vr -> is_mat n r (match Wr with Some A => A | None => Vr end) ->
  (forall dg H, e = OPoly dg H -> newton_guard dg n) -> matmul (mT (match Wr with Some A => A | None => Vr end)) Vr = eye r ->
  projects (lib_world solve junk) n r m Vr Wr {| mo_cls := cls_of e; mo_ent := Some e |} (fun q u i => vget (matvec (entries2 e) (datavec e q u)) i).
Proof. intros Hs Hj Hn Hr Hm Hw HV HW HG HC. assert (HW' : is_mat n r (testbasis Vr Wr)) by (destruct Wr; auto).
  assert (HC' : matmul (mT (testbasis Vr Wr)) Vr = eye r) by (destruct Wr; auto).
  destruct (galerkin_total solve junk n r m e Vr Wr Hs Hj Hn Hr Hm Hw HV HW' (or_introl HC') (or_introl HC')) as [g EG]; auto.
  destruct (galerkin_commutes solve junk n r m e Vr Wr Hs Hj Hn Hr Hm Hw HV HW' (or_introl HC') g EG) as (Hg & HP).
  assert (Hcg : cls_of g = cls_of e) by (eapply galerkin_cls; eauto).
  exists {| mo_cls := cls_of g; mo_ent := Some g |}, (fun q u i => vget (matvec (entries2 g) (datavec g q u)) i). split. { cbn. rewrite EG. cbn [bind]. rewrite Hcg. auto. }
  split. { rewrite !lib_takes. unfold takes_input. cbn [mo_cls]. rewrite Hcg. auto. } split; [apply lib_behaves; auto|].
  change (match Wr with Some A => A | None => Vr end) with (match Wr with Some A => A | None => Vr end). set (T := match Wr with Some A => A | None => Vr end) in *. assert (ET : testbasis Vr Wr = T) by (unfold testbasis, T; destruct Wr; auto). rewrite ET in *.
  intros q u i Hq Hu Hi. destruct (HP q u Hq Hu) as (y & z & E1 & E2 & Hz & E3).
  assert (HVq : is_vec n (matvec Vr q)) by (apply (is_vec_matvec n r); auto).
  rewrite (apply_vec n m) in E1 by auto. injection E1 as <-. rewrite (apply_vec r m) in E2 by auto. injection E2 as <-.
  assert (HY : is_vec n (matvec (entries2 e) (datavec e (matvec Vr q) u))) by (apply (is_vec_matvec n (opdim e n m)), entries2_shape; auto).
  assert (K := f_equal (fun v => vget v i) E3). cbn beta in K. rewrite (vget_matvec r r) in K by (auto; mt). rewrite (vget_matvec r n) in K by (auto; mt).
  etransitivity; [|etransitivity; [exact K|]]; apply bsum_ext; intros k Hk.
  - f_equal. rewrite (mget_matmul r n r) by (auto; mt). apply bsum_ext. intros l Hl. rewrite (mget_mT n r) by auto. auto.
  - rewrite (mget_mT n r) by auto. auto. Qed.
Theorem lib_view solve junk d : (forall q u, orhs _ (view solve junk d) q u = rhs d q u) /\ (forall q u, ojacobian _ (view solve junk d) q u = model_jacobian junk d q u) /\
  (forall q0 n inputs, opredict _ (view solve junk d) q0 n inputs = predict d q0 n inputs) /\
  (forall d2, m_frozen d = false -> m_frozen d2 = false -> omodel_eqb _ (view solve junk d) (view solve junk d2) = model_eqb d d2).
Proof. assert (HR : forall q u, orhs _ (view solve junk d) q u = rhs d q u).
  { intros q u. unfold orhs, rhs. cbn [view om_ops]. generalize (emap (fun _ => 0%R) q). induction (m_ops d) as [|o l IH]; intros a; auto. cbn [osum sum_apply w_apply lib_world]. destruct (op_apply o q u) as [y|]; auto. cbn [bind]. destruct (iadd a y); auto. cbn [bind]. apply IH. }
  split; auto. split. { intros q u. unfold ojacobian, model_jacobian. cbn [view om_ops om_r]. destruct (m_r d) as [r|]; auto. generalize (mzeros r r). induction (m_ops d) as [|o l IH]; intros a; auto. cbn [ojsum sum_jac w_jac lib_world]. destruct (op_jacobian junk o q u) as [[|A]|]; auto; cbn [bind]; auto.
    destruct (shape_is (nrows a) (ncols a) A); auto. }
  split.
  { intros q0 n inputs. assert (HV : forall q u, orhs_vec _ (view solve junk d) q u = rhs_vec d q u) by (intros; unfold orhs_vec, rhs_vec; rewrite HR; auto).
    assert (HI : forall (f g : vec -> nat -> res vec) k q, (forall q j, f q j = g q j) -> iterate f k 0 q = iterate g k 0 q) by (intros; apply iterate_ext; auto).
    unfold opredict, predict. assert (HT : otrained _ (view solve junk d) = check_trained d).
    { unfold otrained, check_trained. cbn [view om_r om_m om_hasin om_ops]. replace (existsb (uncal (lib_world solve junk)) (m_ops d)) with (existsb MonoModel.uncal (m_ops d)); auto. clear. induction (m_ops d) as [|o l IH]; auto. cbn [existsb]. rewrite lib_uncal, IH. auto. }
    rewrite HT. destruct (check_trained d) as [[]|]; auto. cbn [bind view om_r om_m om_hasin]. destruct q0 as [q|]; auto. destruct (m_r d) as [r|]; auto. destruct (negb (length q =? r)); auto.
    destruct (m_hasin d && _); auto. destruct (n <? 1)%Z; auto. f_equal. destruct (m_hasin d); [|apply HI; intros; apply HV]. destruct inputs as [[u|]|]; auto. destruct (_ || _); auto; apply HI; intros; apply HV. }
  intros d2 F1 F2. unfold omodel_eqb, model_eqb, dunder_eq, isinst. cbn [view om_kind om_ops om_r om_m]. rewrite F1, F2. cbn [negb]. rewrite !Bool.orb_true_r, !Bool.andb_true_r.
  assert (HK : kind_eqb (m_kind d2) (m_kind d) && negb (kind_eqb (m_kind d) (m_kind d2)) = false) by (destruct (m_kind d), (m_kind d2); auto). rewrite HK. f_equal.
  generalize (@nil nat). induction (m_ops d) as [|o l IH]; intros marked; auto. cbn [omatch match_ops].
  assert (HF : forall i, ofind (lib_world solve junk) o (m_ops d2) marked i = find_op o (m_ops d2) marked i) by (clear; induction (m_ops d2) as [|b t IH]; intros i; auto; cbn [ofind find_op w_eq lib_world]; rewrite IH; auto).
  rewrite HF. destruct (find_op o (m_ops d2) marked 0); auto. Qed.

(* ---- what fails ---- *)
(* the operator a q on one state, as a class that defines nothing but what OperatorTemplate asks for and galerkin(): without
   __eq__, two objects are equal only if they are the same object (its number); deepcopy makes a new object *)
Definition scalar_world (eqv : nat * R -> nat * R -> bool) : world :=
  {| obj := nat * R; w_ent := fun _ => None; w_type := fun _ => 50; w_dim := fun _ => Some 1; w_in := fun _ => None;
     w_apply := fun o q _ => match q with V q => Ok (V (map (Rmult (snd o)) q)) | M Q => Ok (M (map (map (Rmult (snd o))) Q)) end;
     w_jac := fun o _ _ => Ok (JMat [[snd o]]); w_galerkin := fun o Vr Wr => Ok (S (fst o), snd o); w_copy := fun o => Ok (S (fst o), snd o); w_eq := eqv |}.
Definition same_object (a b : nat * R) : bool := fst a =? fst b.
Definition same_value (a b : nat * R) : bool := if Req_EM_T (snd a) (snd b) then true else false.
Lemma scalar_behaves eqv o m : behaves (scalar_world eqv) 1 m o (fun q _ i => (snd o * vget q i)%R).
Proof. constructor; auto; [discriminate|]. intros q u ou Hq _. destruct q as [|x [|]]; try discriminate. eexists. split; [reflexivity|]. split; [reflexivity|]. intros [|i] Hi; [reflexivity|lia]. Qed.
Theorem copy_not_equal : exists W k l d d', omk W k l = Ok d /\ Forall2 (behaves W 1 1) l [fun q _ i => (2 * vget q i)%R] /\ ocopy W d = Ok d' /\
  model_of W 1 1 d' [fun q _ i => (2 * vget q i)%R] /\ omodel_eqb W d' d = false.
Proof. exists (scalar_world same_object), KContinuous, [(0, 2%R)]. assert (HB := fun n => scalar_behaves same_object (n, 2%R) 1).
  eexists. eexists. split; [reflexivity|]. split; [constructor; auto; apply (HB 0)|]. split; [reflexivity|]. split; [|reflexivity].
  exists KContinuous, [(1, 2%R)]. split; [reflexivity|]. constructor; auto. apply (HB 1). Qed.
Theorem set_dimension_needs_entries W n d o : In o (om_ops d) -> w_ent W o = None -> oset_r W n d = Err AttributeError.
Proof. intros Ho He. unfold oset_r. replace (forallb _ (om_ops d)) with false; auto. symmetry. apply Bool.not_true_is_false. intros K. rewrite forallb_forall in K. specialize (K o Ho). rewrite He in K. discriminate. Qed.
Theorem set_dimension_refuted : exists W k l d fs n, omk W k l = Ok d /\ Forall2 (behaves W n 1) l fs /\ om_r d = Some n /\ oset_r W n d = Err AttributeError.
Proof. exists (scalar_world same_object), KContinuous, [(0, 2%R)]. eexists. exists [fun q _ i => (2 * vget q i)%R], 1. split; [reflexivity|]. split; [constructor; auto; apply (scalar_behaves same_object (0, 2%R) 1)|]. split; reflexivity. Qed.

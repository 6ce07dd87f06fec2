(* MonoRhs.v -- rhs() and jacobian() of a model. *)
From Coq Require Import ZArith String.
From Verif Require Import TupleFinal JacProofs GalProofs.
From Verif Require Export MonoHist.
#[local] Open Scope nat_scope.

Lemma bsum_lsum {A} n (f : nat -> A -> R) (l : list A) : bsum n (fun j => lsum (map (f j) l)) = lsum (map (fun a => bsum n (fun j => f j a)) l).
Proof. induction l as [|a l IH]; cbn [map].
  - apply bsum_0. reflexivity.
  - rewrite lsum_cons, <- IH, <- bsum_plus. apply bsum_ext. intros. rewrite lsum_cons. reflexivity. Qed.
(* dimensions of a trained model; a model without inputs works with any input dimension *)
Lemma trained_dims X d : minv X d -> check_trained d = Ok tt -> exists r m, 0 < r /\ 0 < m /\ m_r d = Some r /\
  (m_hasin d = true -> m_m d = Some m) /\ (m_hasin d = false -> m_m d = Some 0) /\ Forall (sized r m) (m_ops d).
Proof. intros H HT. assert (HI := mi_s X d H). destruct (allcal_dims d HI (trained_allcal d HT)) as (r & m & Hr & Er & Em & Hm & HF).
  destruct (m_hasin d) eqn:Eh; [exists r, m; repeat (split; auto); discriminate|]. exists r, 1. split; auto. split; auto. split; auto. split; [discriminate|].
  split; [intros; apply (si_noin d HI); auto|]. apply Forall_forall. intros o Ho. rewrite Forall_forall in HF. destruct (HF o Ho) as (e & Ee & Hc & Hw).
  exists e. split; auto. split; auto. eapply wf_noinput; eauto. rewrite Hc. change (takes_input o = false). destruct (takes_input o) eqn:Et; auto.
  assert (Hx := sinv_takes d o HI Ho Et). congruence. Qed.
(* the input the operators see *)
Lemma trained_input d u m : sinv d -> input_for d u -> (m_hasin d = true -> m_m d = Some m) -> exists v, is_vec m v /\ (m_hasin d = true -> u = Some v).
Proof. intros HI HU Em. destruct (m_hasin d) eqn:Eh.
  - destruct (HU Eh) as (m' & v & E1 & E2 & E3). rewrite Em in E1 by auto. injection E1 as <-. exists v. auto.
  - exists (repeat 0%R m). split; [apply repeat_length|discriminate]. Qed.

Lemma sum_apply_list r l q ou ys : Forall2 (fun o yo => op_apply o (V q) ou = Ok (V yo) /\ is_vec r yo) l ys -> forall acc, is_vec r acc ->
  exists w, sum_apply l (V q) ou (V acc) = Ok (V w) /\ is_vec r w /\ forall i, i < r -> vget w i = (vget acc i + lsum (map (fun yo => vget yo i) ys))%R.
Proof. induction 1 as [|o yo l ys (E & Hy) H IH]; intros acc Ha.
  - exists acc. split; auto. split; auto. intros. cbn [map]. change (lsum []) with 0%R. ring.
  - cbn [sum_apply]. rewrite E. cbn [bind iadd]. rewrite Hy, Ha, Nat.eqb_refl. cbn [bind].
    assert (Ha2 : is_vec r (vadd acc yo)) by (apply is_vec_vadd; auto).
    destruct (IH _ Ha2) as (w & Ew & Hw & Hv). exists w. split; auto. split; auto. intros i Hi. rewrite Hv by auto. cbn [map]. rewrite lsum_cons.
    rewrite (vget_vadd r) by auto. ring. Qed.

Section Trained.
  Variables (X : lsx) (d : model) (r : nat) (q : vec) (u : option vec).
  Hypotheses (HM : minv X d) (HT : check_trained d = Ok tt) (Hr : m_r d = Some r) (Hq : is_vec r q) (HU : input_for d u).

  Lemma trained_setup : exists m v, 0 < r /\ 0 < m /\ Forall (sized r m) (m_ops d) /\ is_vec m v /\
    (forall o, In o (m_ops d) -> takes_input o = true -> u = Some v).
  Proof. destruct (trained_dims X d HM HT) as (r' & m & Hr' & Hm & Er & Em & Em0 & HF). rewrite Hr in Er. injection Er as <-.
    destruct (trained_input d u m (mi_s X d HM) HU Em) as (v & Hv & Hu). exists m, v. repeat (split; auto). intros o Ho Ht. apply Hu. eapply sinv_takes; eauto. apply (mi_s X d HM). Qed.

  Lemma rhs_sum : exists ys y, Forall2 (fun o yo => op_apply o (V q) (option_map V u) = Ok (V yo) /\ is_vec r yo) (m_ops d) ys /\
    rhs d (V q) (option_map V u) = Ok (V y) /\ is_vec r y /\ forall i, i < r -> vget y i = lsum (map (fun yo => vget yo i) ys).
  Proof. destruct trained_setup as (m & v & Hr0 & Hm & HF & Hv & Hu).
    assert (HL : exists ys, Forall2 (fun o yo => op_apply o (V q) (option_map V u) = Ok (V yo) /\ is_vec r yo) (m_ops d) ys).
    { revert HF Hu. generalize (m_ops d). induction 1 as [|o l Ho HF IH]; intros Hu; [exists []; constructor|].
      destruct (op_apply_vec r m o q v (option_map V u) Hr0 Hm Ho Hq Hv) as (y & E & Hy & _). { intros Ht. rewrite (Hu o); cbn; auto. }
      destruct IH as (ys & H); [intros; apply (Hu o0); cbn; auto|]. exists (y :: ys). constructor; auto. }
    destruct HL as (ys & HL). exists ys. unfold rhs. cbn [emap].
    destruct (sum_apply_list r _ _ _ _ HL (map (fun _ => 0%R) q)) as (w & Ew & Hw & Hval). { unfold is_vec. rewrite map_length. auto. }
    exists w. split; auto. split; auto. split; auto. intros i Hi. rewrite Hval by auto.
    assert (E0 : vget (map (fun _ => 0%R) q) i = 0%R). { unfold vget. rewrite (nth_map_in (fun _ => 0%R) q i 0%R 0%R); auto. unfold is_vec in Hq. lia. }
    rewrite E0. ring. Qed.

  (* the order of the operators does not matter *)
  Lemma rhs_order l : Permutation l (m_ops d) -> rhs (with_ops l d) (V q) (option_map V u) = rhs d (V q) (option_map V u).
  Proof. intros HP. destruct trained_setup as (m & v & Hr0 & Hm & HF & Hv & Hu).
    destruct (rhs_value r m d q v (option_map V u) Hr0 Hm HF Hq Hv) as (w & E & Hw & Hval). { intros o Ho Ht. rewrite (Hu o Ho Ht). reflexivity. }
    destruct (rhs_value r m (with_ops l d) q v (option_map V u) Hr0 Hm) as (w' & E' & Hw' & Hval'); auto.
    { cbn. eapply Permutation_Forall; [apply Permutation_sym; exact HP|exact HF]. }
    { intros o Ho Ht. rewrite (Hu o); auto. eapply Permutation_in; eauto. }
    rewrite E, E'. do 2 f_equal. apply (vec_ext r); auto. intros i Hi. rewrite Hval, Hval' by auto. apply lsum_Permutation, Permutation_map. exact HP. Qed.

  (* ---- Jacobians ---- *)
  Variable junk : nat -> vec.
  Hypothesis Hjunk : forall n, length (junk n) = n.

  Definition jac_ok (o : mop) (Jo : jac) : Prop := op_jacobian junk o q u = Ok Jo /\ match Jo with JZero => True | JMat A => is_mat r r A end.
  Lemma jac_shape m e v Jo : wf_op r m e -> jacobian junk e q v = Ok Jo -> match Jo with JZero => True | JMat A => is_mat r r A end.
  Proof. intros Hw E. destruct e as [c|A|dg H|B|N]; cbn [jacobian wf_op] in *.
    - injection E as <-. exact I.
    - injection E as <-. auto.
    - destruct (expand dg junk H); [|discriminate]. destruct (negb _); [discriminate|]. injection E as <-. rewrite (is_mat_nrows _ _ _ Hw). apply is_mat_tab.
    - injection E as <-. exact I.
    - destruct (negb _); [discriminate|]. injection E as <-. rewrite (is_mat_nrows _ _ _ Hw). apply is_mat_tab. Qed.
  Lemma op_jac_shape m o Jo : sized r m o -> op_jacobian junk o q u = Ok Jo -> jac_ok o Jo.
  Proof. intros (e & Ee & Hc & Hw) E. split; auto. unfold op_jacobian in E. rewrite Ee in E. destruct u as [v|]; [eapply jac_shape; eauto|].
    destruct e; try discriminate; eapply (jac_shape m _ []); eauto. Qed.
  Lemma sum_jac_ok l Js : 0 < r -> Forall2 jac_ok l Js -> forall acc, is_mat r r acc -> exists J, sum_jac junk l q u acc = Ok J /\ is_mat r r J /\
    forall i j, i < r -> j < r -> mget J i j = (mget acc i j + lsum (map (fun Jo => jget Jo i j) Js))%R.
  Proof. intros Hr0. induction 1 as [|o Jo l Js (E & HS) H IH]; intros acc Ha.
    - exists acc. split; auto. split; auto. intros. cbn [map]. change (lsum []) with 0%R. ring.
    - cbn [sum_jac]. rewrite E. cbn [bind]. destruct Jo as [|A].
      + destruct (IH acc Ha) as (J & EJ & HJ & HV). exists J. split; auto. split; auto. intros i j Hi Hj. rewrite HV by auto. cbn [map]. rewrite lsum_cons. cbn [jget]. ring.
      + assert (ES : shape_is (nrows acc) (ncols acc) A = true).
        { unfold shape_is. rewrite (is_mat_nrows _ _ _ Ha), (is_mat_nrows _ _ _ HS), (ncols_is_mat _ _ _ Ha Hr0), (ncols_is_mat _ _ _ HS Hr0), !Nat.eqb_refl. auto. }
        rewrite ES. destruct (IH (madd acc A)) as (J & EJ & HJ & HV); [mt|]. exists J. split; auto. split; auto. intros i j Hi Hj. rewrite HV by auto.
        cbn [map]. rewrite lsum_cons. cbn [jget]. rewrite (mget_madd r r) by auto. ring. Qed.
  Lemma sum_jac_inv m l acc J : Forall (sized r m) l -> sum_jac junk l q u acc = Ok J -> exists Js, Forall2 jac_ok l Js.
  Proof. intros HF. revert acc. induction HF as [|o l Ho HF IH]; intros acc E; [exists []; constructor|]. cbn [sum_jac] in E.
    destruct (op_jacobian junk o q u) as [Jo|] eqn:Eo; [|discriminate]. cbn [bind] in E.
    assert (HJ := op_jac_shape m o Jo Ho Eo). destruct Jo as [|A].
    - destruct (IH acc E) as (Js & H). exists (JZero :: Js). constructor; auto.
    - destruct (shape_is _ _ A); [|discriminate]. destruct (IH _ E) as (Js & H). exists (JMat A :: Js). constructor; auto. Qed.

  Lemma jacobian_sum J : model_jacobian junk d q u = Ok J -> is_mat r r J /\
    exists Js, Forall2 (fun o Jo => op_jacobian junk o q u = Ok Jo) (m_ops d) Js /\
      forall i j, i < r -> j < r -> mget J i j = lsum (map (fun Jo => jget Jo i j) Js).
  Proof. intros E. destruct trained_setup as (m & v & Hr0 & Hm & HF & Hv & Hu). unfold model_jacobian in E. rewrite Hr in E.
    destruct (sum_jac_inv m _ _ _ HF E) as (Js & H). destruct (sum_jac_ok _ _ Hr0 H (mzeros r r) (is_mat_mzeros r r)) as (J' & E' & HJ & HV).
    rewrite E in E'. injection E' as <-. split; auto. exists Js. split.
    - clear - H. induction H as [|o Jo l Js (E & _) H IH]; constructor; auto.
    - intros i j Hi Hj. rewrite HV, mget_mzeros by auto. ring. Qed.

  Lemma jacobian_order J l : Permutation l (m_ops d) -> model_jacobian junk d q u = Ok J -> model_jacobian junk (with_ops l d) q u = Ok J.
  Proof. intros HP E. destruct trained_setup as (m & v & Hr0 & Hm & HF & Hv & Hu). unfold model_jacobian in *. cbn [with_ops m_r m_ops]. rewrite Hr in *.
    destruct (sum_jac_inv m _ _ _ HF E) as (Js & H). destruct (sum_jac_ok _ _ Hr0 H (mzeros r r) (is_mat_mzeros r r)) as (J0 & E0 & HJ & HV).
    rewrite E in E0. injection E0 as <-.
    destruct (Permutation_Forall2 (Permutation_sym HP) H) as (Js' & HP' & H').
    destruct (sum_jac_ok _ _ Hr0 H' (mzeros r r) (is_mat_mzeros r r)) as (J' & E' & HJ' & HV'). rewrite E'. f_equal.
    apply (mat_ext r r); auto. intros i j Hi Hj. rewrite HV, HV' by auto. f_equal. apply lsum_Permutation, Permutation_map, Permutation_sym. exact HP'. Qed.

  Lemma op_jac_total m v o : 0 < r -> 0 < m -> sized r m o -> is_vec m v -> (takes_input o = true -> u = Some v) ->
    (forall dg H, mo_ent o = Some (OPoly dg H) -> newton_guard dg r) -> exists Jo, op_jacobian junk o q u = Ok Jo.
  Proof. intros Hr0 Hm (e & Ee & Hc & Hw) Hv Hu HG.
    assert (HGe : forall dg H, e = OPoly dg H -> newton_guard dg r). { intros dg H ->. eapply HG; eauto. }
    destruct (jacobian_total junk r m e q v Hr0 Hm Hw Hq Hv HGe) as (J & EJ). unfold op_jacobian. rewrite Ee. unfold takes_input in Hu. rewrite <- Hc in Hu.
    destruct (has_inputs (cls_of e)) eqn:Et.
    - rewrite Hu by auto. eauto.
    - assert (EX : forall w, jacobian junk e q w = jacobian junk e q v) by (destruct e; cbn in *; auto; discriminate). destruct u as [w|].
      + rewrite EX. eauto.
      + destruct e; try discriminate; rewrite EX; eauto. Qed.
  Lemma jacobian_defined : (forall o dg H, In o (m_ops d) -> mo_ent o = Some (OPoly dg H) -> newton_guard dg r) -> exists J, model_jacobian junk d q u = Ok J.
  Proof. intros HG. destruct trained_setup as (m & v & Hr0 & Hm & HF & Hv & Hu). unfold model_jacobian. rewrite Hr.
    assert (HL : exists Js, Forall2 jac_ok (m_ops d) Js).
    { revert HF Hu HG. generalize (m_ops d). induction 1 as [|o l Ho HF IH]; intros Hu HG; [exists []; constructor|].
      destruct (op_jac_total m v o Hr0 Hm Ho Hv) as (Jo & EJ). { intros Ht. apply (Hu o); cbn; auto. } { intros dg H. apply (HG o); cbn; auto. }
      destruct IH as (Js & H). { intros o' Ho'. apply Hu; cbn; auto. } { intros o' dg H Ho'. apply (HG o'); cbn; auto. }
      exists (Jo :: Js). constructor; auto. eapply op_jac_shape; eauto. }
    destruct HL as (Js & HL). destruct (sum_jac_ok _ _ Hr0 HL (mzeros r r) (is_mat_mzeros r r)) as (J & E & _). eauto. Qed.

  Lemma op_jac_deriv m v o Jo dir : 0 < r -> 0 < m -> sized r m o -> is_vec m v -> (takes_input o = true -> u = Some v) -> op_jacobian junk o q u = Ok Jo -> is_vec r dir ->
    forall i, i < r -> derivable_pt_lim (fun t => opval (along q dir t) v i o) 0 (vget (jac_dir r Jo dir) i).
  Proof. intros Hr0 Hm (e & Ee & Hc & Hw) Hv Hu EJ Hd i Hi. unfold takes_input in Hu. rewrite <- Hc in Hu.
    assert (EJ' : jacobian junk e q v = Ok Jo).
    { unfold op_jacobian in EJ. rewrite Ee in EJ. destruct (has_inputs (cls_of e)) eqn:Et.
      - rewrite Hu in EJ by auto. auto.
      - assert (EX : forall w, jacobian junk e q w = jacobian junk e q v) by (destruct e; cbn in *; auto; discriminate). destruct u as [w|].
        + rewrite EX in EJ. auto.
        + destruct e; try discriminate; rewrite EX in EJ; auto. }
    destruct (jacobian_derivative junk r m e q v Jo Hjunk Hr0 Hm Hw Hq Hv EJ' dir Hd) as (f & Hf & HD).
    apply (deriv_ext (fun t => vget (f t) i)); auto. intros t. unfold opval. rewrite Ee.
    assert (Hx := Hf t). rewrite (apply_vec r m) in Hx; auto; [|apply is_vec_along; auto]. injection Hx as <-. reflexivity. Qed.

  Lemma jac_dir_get Jo dir i : is_vec r dir -> i < r -> match Jo with JZero => True | JMat A => is_mat r r A end ->
    vget (jac_dir r Jo dir) i = bsum r (fun j => (jget Jo i j * vget dir j)%R).
  Proof. intros Hd Hi HS. destruct Jo as [|A]; cbn [jac_dir jget].
    - rewrite repeat_vget by auto. symmetry. apply bsum_0. intros. ring.
    - apply (vget_matvec r r); auto. Qed.
  Lemma deriv_lsum {A} (l : list A) (f : A -> R -> R) (g : A -> R) x : (forall a, In a l -> derivable_pt_lim (f a) x (g a)) ->
    derivable_pt_lim (fun t => lsum (map (fun a => f a t) l)) x (lsum (map g l)).
  Proof. induction l as [|a l IH]; intros H; cbn [map].
    - apply (deriv_ext (fun _ => 0%R)); [reflexivity|]. apply derivable_pt_lim_const.
    - rewrite lsum_cons. apply (deriv_ext (fun t => (f a t + lsum (map (fun a => f a t) l))%R)). { intros t. rewrite lsum_cons. reflexivity. }
      apply derivable_pt_lim_plus; [apply H; left; auto|apply IH; intros; apply H; right; auto]. Qed.

  Lemma sum_deriv m v dir i l Js : 0 < r -> 0 < m -> is_vec m v -> is_vec r dir -> i < r -> Forall2 jac_ok l Js -> Forall (sized r m) l ->
    (forall o, In o l -> takes_input o = true -> u = Some v) ->
    derivable_pt_lim (fun t => lsum (map (opval (along q dir t) v i) l)) 0 (lsum (map (fun Jo => vget (jac_dir r Jo dir) i) Js)).
  Proof. intros Hr0 Hm Hv Hd Hi. induction 1 as [|o Jo l Js (E & HS) H IH]; intros HF Hu.
    - cbn [map]. apply (deriv_ext (fun _ => 0%R)); [reflexivity|]. apply derivable_pt_lim_const.
    - inversion HF; subst. cbn [map]. rewrite lsum_cons. apply (deriv_ext (fun t => (opval (along q dir t) v i o + lsum (map (opval (along q dir t) v i) l))%R)). { intros t. rewrite lsum_cons. reflexivity. }
      apply derivable_pt_lim_plus; [eapply op_jac_deriv; eauto; intros; apply (Hu o); cbn; auto|apply IH; auto; intros o' Ho'; apply Hu; cbn; auto]. Qed.

  (* the Jacobian is the derivative of rhs *)
  Lemma jacobian_is_derivative J dir : model_jacobian junk d q u = Ok J -> is_vec r dir -> exists f : R -> vec,
    (forall t, rhs d (V (along q dir t)) (option_map V u) = Ok (V (f t))) /\
    forall i, i < r -> derivable_pt_lim (fun t => vget (f t) i) 0 (vget (matvec J dir) i).
  Proof. intros E Hd. destruct trained_setup as (m & v & Hr0 & Hm & HF & Hv & Hu).
    assert (HRt : forall t, exists w, rhs d (V (along q dir t)) (option_map V u) = Ok (V w) /\ is_vec r w /\
      forall i, i < r -> vget w i = lsum (map (opval (along q dir t) v i) (m_ops d))).
    { intros t. apply (rhs_value r m); auto. { apply is_vec_along; auto. } intros o Ho Ht. rewrite (Hu o Ho Ht). reflexivity. }
    exists (fun t => match rhs d (V (along q dir t)) (option_map V u) with Ok (V w) => w | _ => [] end). split.
    { intros t. destruct (HRt t) as (w & Ew & _). rewrite Ew. auto. }
    intros i Hi. apply (deriv_ext (fun t => lsum (map (opval (along q dir t) v i) (m_ops d)))). { intros t. destruct (HRt t) as (w & Ew & _ & Hw). rewrite Ew. rewrite Hw by auto. auto. }
    unfold model_jacobian in E. rewrite Hr in E.
    destruct (sum_jac_inv m _ _ _ HF E) as (Js & H). destruct (sum_jac_ok _ _ Hr0 H (mzeros r r) (is_mat_mzeros r r)) as (J' & E' & HJ & HV).
    rewrite E in E'. injection E' as <-.
    assert (EV : vget (matvec J dir) i = lsum (map (fun Jo => vget (jac_dir r Jo dir) i) Js)).
    { rewrite (vget_matvec r r) by auto. rewrite (bsum_ext r _ (fun j => lsum (map (fun Jo => (jget Jo i j * vget dir j)%R) Js))).
      2:{ intros j Hj. rewrite HV, mget_mzeros, Rplus_0_l by auto. rewrite <- lsum_map_scal_r. reflexivity. }
      rewrite bsum_lsum. f_equal. apply map_ext_in. intros Jo HJo. symmetry. apply jac_dir_get; auto.
      clear - H HJo. induction H as [|o Jo' l Js (E & HS) H IH]; [destruct HJo|]. destruct HJo as [<-|HJo]; [exact HS|exact (IH HJo)]. }
    rewrite EV. eapply sum_deriv; eauto. Qed.
End Trained.

(* ---- several states at once ---------------------------------------------------------------------------------------------- *)
Lemma sum_apply_mat r m k l Q U oU : 0 < r -> 0 < m -> Forall (sized r m) l -> is_mat r k Q -> is_mat m k U ->
  (forall o, In o l -> takes_input o = true -> oU = Some (M U)) -> forall acc, is_mat r k acc ->
  exists Y, sum_apply l (M Q) oU (M acc) = Ok (M Y) /\ is_mat r k Y /\
    forall i j, i < r -> j < k -> mget Y i j = (mget acc i j + lsum (map (opval (colv r Q j) (colv m U j) i) l))%R.
Proof. intros Hr Hm HF HQ HU. induction HF as [|o l Ho HF IH]; intros Hin acc Ha.
  - exists acc. split; auto. split; auto. intros. cbn [map]. change (lsum []) with 0%R. ring.
  - cbn [sum_apply]. destruct (op_apply_mat r m k o Q U oU Hr Hm Ho HQ HU) as (Y & E & HY & HV). { apply Hin; cbn; auto. }
    rewrite E. cbn [bind iadd].
    assert (ES : shape_is (nrows acc) (ncols acc) Y = true).
    { unfold shape_is. rewrite (is_mat_nrows _ _ _ Ha), (is_mat_nrows _ _ _ HY), (ncols_is_mat _ _ _ Ha Hr), (ncols_is_mat _ _ _ HY Hr), !Nat.eqb_refl. auto. }
    rewrite ES. cbn [bind]. destruct (IH) with (acc := madd acc Y) as (Y' & E' & HY' & HV'); [intros; apply (Hin o0); cbn; auto|mt|].
    exists Y'. split; auto. split; auto. intros i j Hi Hj. rewrite HV' by auto. cbn [map]. rewrite lsum_cons, (mget_madd r k), HV by auto. ring. Qed.

Lemma zeros_like_mat r k Q : is_mat r k Q -> map (map (fun _ => 0%R)) Q = mzeros r k.
Proof. intros [HL HF]. unfold mzeros. revert r HL HF. induction Q as [|v Q IH]; intros [|r] HL HF; cbn in *; try discriminate; auto.
  inversion HF as [|? ? Hv HF']; subst. f_equal; [|apply IH; auto]. clear. induction v; cbn; congruence. Qed.
Lemma rhs_columns X d r k Q U : minv X d -> check_trained d = Ok tt -> m_r d = Some r -> is_mat r k Q -> 0 < k ->
  (m_hasin d = true -> exists m U0, m_m d = Some m /\ U = Some U0 /\ is_mat m k U0) ->
  exists Y, rhs d (M Q) (option_map M U) = Ok (M Y) /\ is_mat r k Y /\
    forall j, j < k -> rhs d (V (colv r Q j)) (option_map (fun W => V (colv (nrows W) W j)) U) = Ok (V (colv r Y j)).
Proof. intros HM HT Hr HQ Hk HU. destruct (trained_dims X d HM HT) as (r' & m & Hr' & Hm & Er & Em & Em0 & HF). rewrite Hr in Er. injection Er as <-.
  assert (HI := mi_s X d HM).
  assert (HE : exists U0, is_mat m k U0 /\ forall o, In o (m_ops d) -> takes_input o = true -> U = Some U0).
  { destruct (m_hasin d) eqn:Eh.
    - destruct (HU eq_refl) as (m' & U0 & E1 & E2 & E3). rewrite Em in E1 by auto. injection E1 as <-. exists U0. split; auto.
    - exists (mzeros m k). split; [apply is_mat_mzeros|]. intros o Ho Ht. assert (Hx := sinv_takes d o HI Ho Ht). congruence. }
  destruct HE as (U0 & HU0 & Hu). unfold rhs at 1. cbn [emap]. rewrite (zeros_like_mat r k Q HQ).
  destruct (sum_apply_mat r m k (m_ops d) Q U0 (option_map M U) Hr' Hm HF HQ HU0) with (acc := mzeros r k) as (Y & E & HY & HV).
  { intros o Ho Ht. rewrite (Hu o Ho Ht). reflexivity. } { apply is_mat_mzeros. }
  exists Y. split; auto. split; auto. intros j Hj.
  destruct (rhs_value r m d (colv r Q j) (colv m U0 j) (option_map (fun W => V (colv (nrows W) W j)) U) Hr' Hm HF) as (w & Ew & Hw & Hwv); auto using is_vec_colv.
  { intros o Ho Ht. rewrite (Hu o Ho Ht). cbn. rewrite (is_mat_nrows _ _ _ HU0). reflexivity. }
  rewrite Ew. do 2 f_equal. apply (vec_ext r); auto using is_vec_colv. intros i Hi. rewrite Hwv, vget_colv, HV by auto.
  rewrite mget_mzeros by auto. ring. Qed.

(* ---- inputs are demanded exactly when an operator takes them ------------------------------------------------------------ *)
Lemma sum_apply_noinput l q acc : existsb takes_input l = true -> exists e, sum_apply l q None acc = Err e.
Proof. revert acc. induction l as [|o l IH]; intros acc H; [discriminate|]. cbn [sum_apply existsb] in *. unfold op_apply. destruct (mo_ent o) as [e|]; [|cbn; eauto].
  destruct (takes_input o) eqn:Et; [cbn; eauto|]. cbn in H. destruct (apply e q (V [])) as [y|]; [|cbn; eauto]. cbn [bind]. destruct (iadd acc y); [|cbn; eauto]. cbn. apply IH; auto. Qed.
Lemma rhs_needs_input X d q : minv X d -> m_hasin d = true -> exists e, rhs d q None = Err e.
Proof. intros H Hh. unfold rhs. apply sum_apply_noinput. rewrite <- (si_hasin d (mi_s X d H)). auto. Qed.
Lemma sum_apply_ignores l q u acc : (forall o, In o l -> valid_op o) -> existsb takes_input l = false -> sum_apply l q u acc = sum_apply l q None acc.
Proof. revert acc. induction l as [|o l IH]; intros acc HV H; auto. cbn [existsb] in H. apply Bool.orb_false_iff in H. destruct H as [Ht H]. cbn [sum_apply].
  assert (E : op_apply o q u = op_apply o q None).
  { unfold op_apply. destruct (mo_ent o) as [e|] eqn:Ee; auto. rewrite Ht. destruct u as [u|]; auto. apply apply_noinput.
    destruct (HV o (or_introl eq_refl) e Ee) as [Hc _]. rewrite Hc. exact Ht. }
  rewrite E. destruct (op_apply o q None) as [y|]; auto. cbn [bind]. destruct (iadd acc y); auto. cbn. apply IH; auto. intros; apply HV; cbn; auto. Qed.
Lemma rhs_ignores_input X d q u : minv X d -> m_hasin d = false -> rhs d q u = rhs d q None.
Proof. intros H Hh. unfold rhs. assert (HI := mi_s X d H). apply sum_apply_ignores; [apply (si_valid d HI)|]. rewrite <- (si_hasin d HI). auto. Qed.

(* ---- continuous models ------------------------------------------------------------------------------------------------------ *)
Lemma cont_rhs_ok d t q f : cont_rhs d t q f = if m_hasin d then match f with Some g => rhs d q (Some (g t)) | None => Err TypeError end else rhs d q None.
Proof. unfold cont_rhs, cont_input. destruct (m_hasin d); auto. destruct f; auto. Qed.

(* ---- Galerkin projection of a model --------------------------------------------------------------------------------------- *)
Lemma entries_all_sized r m l : Forall (sized r m) l -> forall e, In e (entries_of l) -> wf_op r m e.
Proof. intros HF e He. apply in_entries_of in He. destruct He as (o & Ho & Ee). rewrite Forall_forall in HF. destruct (HF o Ho) as (e' & E' & _ & Hw). congruence. Qed.
Lemma filter_uncal_sized r m l : Forall (sized r m) l -> filter uncal l = [].
Proof. induction 1 as [|o l Ho H IH]; auto. cbn. rewrite (sized_cal r m o Ho). auto. Qed.
Lemma indices_sized r m l : Forall (sized r m) l -> indices uncal l = [].
Proof. intros H. destruct (indices uncal l) as [|i t] eqn:E; auto. assert (Hi : In i (indices uncal l)) by (rewrite E; left; auto). apply in_indices in Hi.
  destruct Hi as (o & Eo & Hu). rewrite Forall_forall in H. rewrite (sized_cal r m o (H o (nth_error_In _ _ Eo))) in Hu. discriminate. Qed.
Lemma resolve_AOp l : resolve false (map AOp l) = (existsb takes_input l, Ok l).
Proof. assert (H : forall b, resolve b (map AOp l) = (b || existsb takes_input l, Ok l)); [|apply (H false)].
  induction l as [|o l IH]; intros b; cbn. { rewrite Bool.orb_false_r. auto. } rewrite IH. cbn. rewrite <- Bool.orb_assoc. auto. Qed.
Lemma state_dim_sized r m l : l <> [] -> Forall (sized r m) l -> state_dim l = Ok (Some r).
Proof. intros Hne HF. unfold state_dim. rewrite (one_of_all _ r).
  - destruct l as [|o l]; [congruence|]. inversion HF as [|? ? (e & Ee & _) HF']; subst. unfold entries_of. cbn. rewrite Ee. reflexivity.
  - intros x Hx. apply in_map_iff in Hx. destruct Hx as (e & <- & He). apply (wf_rows r m). eapply entries_all_sized; eauto. Qed.
Lemma input_dim_sized r m l : 0 < r -> Forall (sized r m) l -> input_dim l = Ok (Some (if existsb takes_input l then m else 0)).
Proof. intros Hr HF. unfold input_dim. destruct (filter takes_input l) as [|o t] eqn:E.
  - assert (existsb takes_input l = false) as ->; auto. destruct (existsb takes_input l) eqn:Ex; auto. apply existsb_exists in Ex. destruct Ex as (o & Ho & Ht).
    assert (In o (filter takes_input l)) by (apply filter_In; auto). rewrite E in H. destruct H.
  - assert (Hin : forall o', In o' (o :: t) -> In o' l /\ takes_input o' = true). { intros o' Ho'. rewrite <- E in Ho'. apply filter_In in Ho'. auto. }
    assert (Ex : existsb takes_input l = true). { apply existsb_exists. exists o. apply Hin. left; auto. } rewrite Ex.
    rewrite Forall_forall in HF. rewrite (one_of_all _ m).
    + destruct (HF o (proj1 (Hin o (or_introl eq_refl)))) as (e & Ee & _). unfold entries_of. cbn. rewrite Ee. reflexivity.
    + intros x Hx. apply in_map_iff in Hx. destruct Hx as (e & <- & He). apply in_entries_of in He. destruct He as (o' & Ho' & Ee').
      destruct (Hin o' Ho') as [H1 H2]. destruct (HF o' H1) as (e' & E' & Hc & Hw). rewrite Ee' in E'. injection E' as <-. apply (wf_inputs r m); auto. unfold takes_input in H2. congruence. Qed.
Lemma filter_true {A} (p : A -> bool) l : (forall x, In x l -> p x = true) -> filter p l = l.
Proof. induction l as [|a l IH]; intros H; auto. cbn. rewrite (H a) by (left; auto). f_equal. apply IH. intros; apply H; right; auto. Qed.
Lemma indices_all p l : (forall o, In o l -> p o = true) -> indices p l = seq 0 (length l).
Proof. intros H. unfold indices. apply filter_true. intros i Hi. apply in_seq in Hi.
  destruct (nth_error l i) as [o|] eqn:E; [apply H; eapply nth_error_In; eauto|apply nth_error_None in E; lia]. Qed.
(* a model made of operators with entries *)
Lemma mk_model_sized k fr r m l a : l <> [] -> 0 < r -> Forall (sized r m) l -> mk_model k fr (map AOp l) a =
  Ok {| m_kind := k; m_frozen := fr; m_ops := l; m_infer := []; m_known := seq 0 (length l); m_hasin := existsb takes_input l;
        m_r := Some r; m_m := Some (if existsb takes_input l then m else 0); m_intrusive := true; m_solver := None |}.
Proof. intros Hne Hr HF. unfold mk_model, set_operators. destruct l as [|o l]; [congruence|]. cbn [map]. change (AOp o :: map AOp l) with (map AOp (o :: l)).
  rewrite resolve_AOp. rewrite (filter_uncal_sized r m _ HF). cbn [map duplicates]. rewrite (state_dim_sized r m _ Hne HF), (input_dim_sized r m _ Hr HF).
  rewrite (indices_sized r m _ HF). cbn [length Nat.eqb seqm]. unfold set_solver. cbn [m_frozen m_intrusive].
  assert (EI : indices (fun o0 => negb (uncal o0)) (o :: l) = seq 0 (length (o :: l))).
  { apply indices_all. intros o0 Ho. rewrite Forall_forall in HF. rewrite (sized_cal r m o0 (HF o0 Ho)). auto. }
  rewrite EI. destruct fr; reflexivity. Qed.

Lemma mapM_inv {A B} (f : A -> res B) l l' : mapM f l = Ok l' -> Forall2 (fun a b => f a = Ok b) l l'.
Proof. revert l'. induction l as [|a l IH]; intros l' E; cbn in E; [injection E as <-; constructor|]. destruct (f a) as [b|] eqn:Ea; [|discriminate]. cbn in E.
  destruct (mapM f l) as [t|]; [|discriminate]. cbn in E. injection E as <-. constructor; auto. Qed.
Section GalModel.
  Variables (X : lsx) (solve : mat -> mat -> res mat) (junk : nat -> vec) (d d' : model) (n r : nat) (Vr : mat) (Wr : option mat).
  Hypotheses (HM : minv X d) (HT : check_trained d = Ok tt) (Hn : m_r d = Some n).
  Hypothesis Hsolve : solve_spec solve.
  Hypothesis Hj : forall k, length (junk k) = k.
  Hypotheses (Hr : 0 < r) (HV : is_mat n r Vr) (HW : is_mat n r (testbasis Vr Wr)).
  Hypothesis Hclose : matmul (mT (testbasis Vr Wr)) Vr = eye r \/ allclose (matmul (mT (testbasis Vr Wr)) Vr) (eye r) = false.
  Hypothesis HG : galerkin_model solve junk d Vr Wr = Ok d'.

  (* the projected model: same kind and classes, new state dimension, and its rhs is the projected rhs *)
  Lemma galerkin_model_rhs : m_kind d' = m_kind d /\ map mo_cls (m_ops d') = map mo_cls (m_ops d) /\ m_r d' = Some r /\ m_m d' = m_m d /\
    check_trained d' = Ok tt /\
    forall q u, is_vec r q -> input_for d u -> exists y z,
      rhs d (V (matvec Vr q)) (option_map V u) = Ok (V y) /\ rhs d' (V q) (option_map V u) = Ok (V z) /\ is_vec r z /\
      matvec (matmul (mT (testbasis Vr Wr)) Vr) z = matvec (mT (testbasis Vr Wr)) y.
  Proof. destruct (trained_dims X d HM HT) as (n' & m & Hn' & Hm & En & Em & Em0 & HF). rewrite Hn in En. injection En as <-.
    assert (HI := mi_s X d HM).
    unfold galerkin_model in HG. destruct (mapM _ (m_ops d)) as [l|] eqn:EL; [|discriminate]. cbn [bind] in HG.
    apply mapM_inv in EL.
    assert (HL : Forall2 (fun o o' => mo_cls o' = mo_cls o /\ exists e g, mo_ent o = Some e /\ wf_op n m e /\ cls_of e = mo_cls o /\ mo_ent o' = Some g /\ cls_of g = mo_cls o' /\ galerkin solve junk e Vr Wr = Ok g) (m_ops d) l).
    { clear HG Em Em0. revert HF. induction EL as [|o o' lo lo' E EL IH]; intros HF; constructor.
      - inversion HF as [|? ? (e & Ee & Hc & Hw)]; subst. rewrite Ee in E. destruct (galerkin solve junk e Vr Wr) as [g|] eqn:EG; [|discriminate]. cbn in E. injection E as <-. cbn.
        split; auto. exists e, g. repeat (split; auto). rewrite <- Hc. eapply galerkin_cls; eauto.
      - apply IH. inversion HF; auto. }
    assert (HGw : forall e g, wf_op n m e -> galerkin solve junk e Vr Wr = Ok g -> wf_op r m g /\ forall q u, is_vec r q -> is_vec m u -> exists y z,
      apply e (V (matvec Vr q)) (V u) = Ok (V y) /\ apply g (V q) (V u) = Ok (V z) /\ is_vec r z /\
      matvec (matmul (mT (testbasis Vr Wr)) Vr) z = matvec (mT (testbasis Vr Wr)) y).
    { intros e g Hw EG. eapply (galerkin_commutes solve junk n r m e Vr Wr); eauto. }
    assert (HF' : Forall (sized r m) l).
    { clear - HL HGw. induction HL as [|o o' lo lo' (Hc & e & g & E1 & E2 & E3 & E4 & E5 & E6) HL IH]; constructor; auto. exists g. split; auto. split; auto. eapply HGw; eauto. }
    assert (Hcls : map mo_cls l = map mo_cls (m_ops d)). { clear - HL. induction HL as [|o o' lo lo' (Hc & _) HL IH]; cbn; congruence. }
    assert (Hne : l <> []). { assert (Hx := si_ne d HI). intros ->. destruct (m_ops d); [congruence|discriminate]. }
    rewrite (mk_model_sized _ _ r m l SNone Hne Hr HF') in HG. injection HG as <-. cbn [m_kind m_ops m_r m_m].
    split; auto. split; auto. split; auto. split.
    { rewrite (existsb_cls l (m_ops d) Hcls), <- (si_hasin d HI). destruct (m_hasin d); symmetry; auto. }
    split. { apply (trained_sized _ r m); cbn; auto. discriminate. }
    intros q u Hq HU. destruct (trained_input d u m HI HU Em) as (v & Hv & Hu).
    assert (Hu' : forall o, In o (m_ops d) -> takes_input o = true -> option_map V u = Some (V v)).
    { intros o Ho Ht. rewrite Hu; auto. eapply sinv_takes; eauto. }
    assert (HQ : is_vec n (matvec Vr q)) by (apply (is_vec_matvec n r); auto).
    destruct (rhs_value n m d (matvec Vr q) v (option_map V u) Hn' Hm HF HQ Hv Hu') as (y & Ey & Hy & Hyv).
    match goal with |- context[rhs ?D (V q) _] => destruct (rhs_value r m D q v (option_map V u) Hr Hm HF' Hq Hv) as (z & Ez & Hz & Hzv) end.
    { cbn [m_ops]. intros o Ho Ht. assert (Ex : existsb takes_input l = true) by (apply existsb_exists; eauto). rewrite (existsb_cls l (m_ops d) Hcls) in Ex.
      apply existsb_exists in Ex. destruct Ex as (o1 & Ho1 & Ht1). eauto. }
    exists y, z. split; auto. split; auto. split; auto. cbn [m_ops] in Hzv.
    assert (HWT : is_mat r n (mT (testbasis Vr Wr))) by mt. assert (HWV : is_mat r r (matmul (mT (testbasis Vr Wr)) Vr)) by mt.
    apply (vec_ext r). { apply (is_vec_matvec r r); auto. } { apply (is_vec_matvec r n); auto. } intros i Hi.
    rewrite (vget_matvec r r), (vget_matvec r n) by auto.
    rewrite (bsum_ext r _ (fun j => lsum (map (fun o => (mget (matmul (mT (testbasis Vr Wr)) Vr) i j * opval q v j o)%R) l))).
    2:{ intros j Hj'. rewrite Hzv by auto. rewrite lsum_map_scal. reflexivity. }
    rewrite (bsum_ext n _ (fun j => lsum (map (fun o => (mget (mT (testbasis Vr Wr)) i j * opval (matvec Vr q) v j o)%R) (m_ops d)))).
    2:{ intros j Hj'. rewrite Hyv by auto. rewrite lsum_map_scal. reflexivity. }
    rewrite !bsum_lsum. clear - HL HGw Hq Hv Hi HWT HWV Hr Hn' Hm HQ HV. induction HL as [|o o' lo lo' (Hc & e & g & E1 & E2 & E3 & E4 & E5 & E6) HL IH]; auto.
    cbn [map]. rewrite !lsum_cons. f_equal; auto. destruct (HGw e g E2 E6) as (Hwg & HC). destruct (HC q v Hq Hv) as (y & z & Ey & Ez & Hz & HE).
    rewrite (apply_vec n m) in Ey by auto. rewrite (apply_vec r m) in Ez by auto. injection Ey as <-. injection Ez as <-.
    assert (HEi := f_equal (fun w => vget w i) HE). cbv beta in HEi.
    rewrite (vget_matvec r r) in HEi by auto. rewrite (vget_matvec r n) in HEi; auto.
    2:{ apply (is_vec_matvec n (opdim e n m)), entries2_shape; auto. }
    unfold opval. rewrite E1, E4. exact HEi. Qed.
End GalModel.

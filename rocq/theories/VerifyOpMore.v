(* VerifyOpMore.v -- verify() of operators: users' classes, files, exceptions, parametric operators. *)
From Coq Require Import String ZArith Lra Lia Psatz.
From Verif Require Import MatAlg LinAlg OpsProofs JacProofs GalProofs AffProofs SaveFile VerifyTf VerifyOpProofs VerifyOpLib VerifyOpFd.
From Verif Require Import SpecVerifyOp.
#[local] Open Scope string_scope.
#[local] Open Scope nat_scope.
#[local] Open Scope list_scope.

Lemma linear_accepted solve junk I lusolve D k ntests r m o e : solve_spec solve -> solve_total solve -> (forall n, length (junk n) = n) -> lu_spec lusolve ->
  drawn D -> 0 < k -> 0 < r -> 0 < m -> mo_ent o = Some e -> cls_of e = mo_cls o -> wf_op r m e -> (forall d, mo_cls o <> CPoly d) -> (1 < r -> general_position D r) ->
  forall rt mt f, 0 < rt -> 0 < mt -> f tempfile = None -> exists f', op_verify solve junk I calm lusolve D k ntests rt mt o f = (f', Done) /\ same_files f f'.
Proof.
  intros H1 H2 H3 H4 H5 H6 H7 H8 Ho Hc Hw Hp Hgp rt mt f Hrt Hmt Hf.
  assert (Hg : size_ok r e) by (intros d H ->; exfalso; apply (Hp d); rewrite <- Hc; reflexivity).
  destruct (library_verdict solve junk I lusolve D k ntests r m o e H1 H2 H3 H4 H5 H6 H7 H8 Ho Hc Hw Hg Hgp rt mt f Hrt Hmt Hf) as (f' & HF & _ & HV).
  exists f'. split; auto. apply HV. apply linear_confirmed with (e := e); auto.
Qed.
(* a correct quadratic operator whose test point is too close to zero *)
Lemma quad_value c s u : apply (OPoly Quadratic [[c]]) (V [s]) u = Ok (V [(c * s ^ 2)%R]).
Proof. reflexivity. Qed.
Lemma scalar_confirmed junk D k c x : (forall n, length (junk n) = n) -> drawn D -> c <> 0%R -> dr_x D 1 = [x] ->
  (jacobian_confirmed junk D {| mo_cls := CPoly Quadratic; mo_ent := Some (OPoly Quadratic [[c]]) |} 1 (test_input D (CPoly Quadratic) 1 k) <-> (5 / 10 ^ 6 <= Rabs x)%R).
Proof.
  intros Hj HD Hc Hx. cbn [test_input has_inputs]. set (o := {| mo_cls := CPoly Quadratic; mo_ent := Some (OPoly Quadratic [[c]]) |}).
  assert (Hw : wf_op 1 1 (OPoly Quadratic [[c]])) by (repeat constructor).
  assert (Hca : (0 < Rabs c)%R) by (apply Rabs_pos_lt; auto).
  assert (E0 : forall t, matvec (entries2 (OPoly Quadratic [[c]])) (datavec (OPoly Quadratic [[c]]) (along [x] (nth 0 (eye 1) []) t) [0%R]) = [(c * (x + t) ^ 2)%R]).
  { intros t. pose proof (apply_vec 1 1 (OPoly Quadratic [[c]]) (along [x] (nth 0 (eye 1) []) t) [0%R] ltac:(lia) ltac:(lia) Hw eq_refl eq_refl) as E.
    replace (along [x] (nth 0 (eye 1) []) t) with [(x + t)%R] in * by (unfold along, eye; cbn; do 2 f_equal; ring). rewrite quad_value in E. congruence. }
  destruct (jacobian_total junk 1 1 (OPoly Quadratic [[c]]) [x] [0%R] ltac:(lia) ltac:(lia) Hw eq_refl eq_refl ltac:(intros d H [= <- <-]; exact Logic.I)) as (J' & EJ').
  assert (EO : op_jacobian junk o (dr_x D 1) None = Ok J') by (rewrite <- EJ', Hx; reflexivity).
  destruct J' as [|J]. { exfalso. cbn [jacobian] in EJ'. destruct (expand _ _ _); [|discriminate]. destruct (negb _); discriminate. }
  pose proof (jac_mat junk 1 1 _ [x] [0%R] J Hj ltac:(lia) ltac:(lia) Hw eq_refl eq_refl EJ') as HJm.
  pose proof (jac_axis junk 1 1 _ [x] [0%R] J Hj ltac:(lia) ltac:(lia) Hw eq_refl eq_refl EJ' 0 0 ltac:(lia) ltac:(lia)) as Dv.
  assert (EJ : mget J 0 0 = (2 * c * x)%R).
  { apply (uniqueness_limite (fun t => vget (matvec (entries2 (OPoly Quadratic [[c]])) (datavec (OPoly Quadratic [[c]]) (along [x] (nth 0 (eye 1) []) t) [0%R])) 0) 0%R); auto.
    intros eps Heps. assert (P : (0 < eps / Rabs c)%R) by (apply Rdiv_lt_0_compat; auto). exists (mkposreal _ P).
    intros h Hh Hlt. rewrite !E0. cbn [vget nth]. unfold vget. cbn [nth]. cbn in Hlt. replace ((c * (x + (0 + h)) ^ 2 - c * (x + 0) ^ 2) / h - 2 * c * x)%R with (c * h)%R by (field; auto).
    rewrite Rabs_mult. apply Rmult_lt_reg_r with (/ Rabs c)%R; [apply Rinv_0_lt_compat; auto|]. replace (Rabs c * Rabs h * / Rabs c)%R with (Rabs h) by (field; lra). exact Hlt. }
  assert (P10 : (10 ^ 10 = 10000000000)%R) by ring. assert (P5 : (10 ^ 5 = 100000)%R) by ring. assert (P6 : (10 ^ 6 = 1000000)%R) by ring.
  assert (FD : forall f, f [x] = [(c * x ^ 2)%R] -> (forall h, f [(x + h)%R] = [(c * (x + h) ^ 2)%R]) -> (fd_agrees 1 (/ 10 ^ 5) f [x] J <-> (5 / 10 ^ 6 <= Rabs x)%R)).
  { intros f Hf0 Hf. 
    assert (K : forall i, ((distance 1 1 (quotients 1 f [x] (/ 10 ^ i)) J <= / 10 ^ 5 * norm 1 1 J)%R <-> (/ 10 ^ i <= / 10 ^ 5 * (2 * Rabs x))%R)).
    { intros i. set (h := (/ 10 ^ i)%R). assert (Hp : (0 < 10 ^ i)%R) by (apply pow_lt; lra). assert (Hh : (0 < h)%R) by (apply Rinv_0_lt_compat; auto).
      unfold distance, norm. cbn [bsum]. rewrite !Rplus_0_l, !sqrt_Rsqr_abs. rewrite mget_quotients by lia.
      replace (along [x] (nth 0 (eye 1) []) h) with [(x + h)%R] by (unfold along, eye; cbn; do 2 f_equal; ring). rewrite Hf0, Hf. unfold vget. cbn [nth]. rewrite EJ.
      replace ((c * (x + h) ^ 2 - c * x ^ 2) / h - 2 * c * x)%R with (c * h)%R by (field; lra). rewrite !Rabs_mult. rewrite (Rabs_pos_eq h), (Rabs_pos_eq 2) by lra.
      split; intros H.
      - apply Rmult_le_reg_l with (Rabs c); auto. lra.
      - apply Rmult_le_compat_l with (r := Rabs c) in H; lra. }
    split.
    - intros (i & Hi & H). apply K in H. assert (/ 10 ^ 10 <= / 10 ^ i)%R by (apply Rinv_le_contravar; [apply pow_lt; lra|apply Rle_pow; [lra|lia]]). rewrite P5, P6, P10 in *. lra.
    - intros H. exists 10. split; [lia|]. apply K. rewrite P5, P6, P10 in *. lra. }
  split.
  - intros (J2 & E2 & HJ2). rewrite EO in E2. injection E2 as <-. rewrite Hx in HJ2. apply (FD (fun q => [(c * vget q 0 ^ 2)%R])); auto.
    apply HJ2. intros [|s [|]] Hq; try discriminate. reflexivity.
  - intros H. exists (JMat J). split; auto. intros f Hf. rewrite Hx. assert (E : forall s, f [s] = [(c * s ^ 2)%R]). { intros s. pose proof (Hf [s] eq_refl) as Q. cbn [option_map] in Q. assert (Q' : op_apply o (V [s]) None = Ok (V [(c * s ^ 2)%R])) by reflexivity. congruence. }
    apply FD; auto.
Qed.
Lemma scalar_verdict solve junk I lusolve D k ntests c x : solve_spec solve -> solve_total solve -> (forall n, length (junk n) = n) -> lu_spec lusolve -> drawn D -> 0 < k ->
  c <> 0%R -> dr_x D 1 = [x] -> forall rt mt f, 0 < rt -> 0 < mt -> f tempfile = None ->
  exists f', same_files f f' /\ op_verify solve junk I calm lusolve D k ntests rt mt {| mo_cls := CPoly Quadratic; mo_ent := Some (OPoly Quadratic [[c]]) |} f =
  (f', if Rle_dec (5 / 10 ^ 6) (Rabs x) then Done else Raised VerificationError).
Proof.
  intros H1 H2 H3 H4 H5 H6 Hc Hx rt mt f Hrt Hmt Hf. set (o := {| mo_cls := CPoly Quadratic; mo_ent := Some (OPoly Quadratic [[c]]) |}).
  destruct (library_verdict solve junk I lusolve D k ntests 1 1 o (OPoly Quadratic [[c]]) H1 H2 H3 H4 H5 H6 ltac:(lia) ltac:(lia) eq_refl eq_refl) with (rt := rt) (mt := mt) (f := f) as (f' & HF & HV & HI); auto.
  - repeat constructor.
  - intros d H [= <- <-]. exact Logic.I.
  - lia.
  - exists f'. split; auto. pose proof (iff_trans HI (scalar_confirmed junk D k c x H3 H5 Hc Hx)) as HI'. clear HI. destruct (Rle_dec _ _) as [Hle|Hn]; [now apply HI'|].
    destruct HV as [HV|HV]; auto. exfalso. apply Hn. now apply HI'.
Qed.
Lemma quotients_converge junk r m o e u x J tol : (forall n, length (junk n) = n) -> 0 < r -> 0 < m -> mo_ent o = Some e -> cls_of e = mo_cls o -> wf_op r m e -> size_ok r e ->
  is_vec m u -> is_vec r x -> let ui := if has_inputs (mo_cls o) then Some u else None in
  op_jacobian junk o x ui = Ok (JMat J) -> (0 < norm r r J)%R -> (0 < tol)%R ->
  forall f, (forall q, is_vec r q -> op_apply o (V q) (option_map V ui) = Ok (V (f q))) ->
  exists h0, (0 < h0)%R /\ forall h, (0 < Rabs h < h0)%R -> (distance r r (quotients r f x h) J <= tol * norm r r J)%R.
Proof.
  intros Hj Hr Hm Ho Hc Hw Hg Hu Hx ui EJ HJ Ht f Hf.
  set (D := {| dr_Q := fun r k => repeat (repeat 0%R k) r; dr_U := fun m' k => if m' =? m then map (fun t => repeat t k) u else repeat (repeat 0%R k) m';
               dr_x := fun r => repeat 0%R r; dr_V := fun n r => map (fun i => map (fun j => if i =? j then 1%R else 0%R) (seq 0 r)) (seq 0 n);
               dr_W := fun n r => map (fun i => map (fun j => if i =? j then 1%R else 0%R) (seq 0 r)) (seq 0 n); dr_q := fun _ _ r => repeat 0%R r |}).
  assert (Z : forall a b, is_mat a b (repeat (repeat 0%R b) a)).
  { intros a b. split; [apply repeat_length|]. apply Forall_forall. intros l Hl. apply repeat_spec in Hl. subst. apply repeat_length. }
  assert (HD : drawn D).
  { split; [exact Z|]. split. { intros m' k. cbn [D dr_U]. destruct (Nat.eqb_spec m' m) as [->|]; auto. split; [rewrite map_length; exact Hu|]. apply Forall_forall. intros l Hl. apply in_map_iff in Hl. destruct Hl as (t & <- & _). apply repeat_length. }
    split; [intros; apply repeat_length|]. split; [|split; [intros; apply is_mat_tab|intros; apply repeat_length]].
    intros n r' Hle. split; [apply is_mat_tab|]. cbn [D dr_V]. destruct (Nat.eq_dec r' 0) as [->|]. { destruct n; reflexivity. }
    apply (mat_ext r' r').
    - apply (is_mat_matmul r' n r'); [apply is_mat_mT; [apply is_mat_tab|lia]|apply is_mat_tab|lia].
    - apply is_mat_eye.
    - intros i j Hi Hj'. rewrite (mget_matmul r' n r') by first [lia|apply is_mat_tab|apply is_mat_mT; [apply is_mat_tab|lia]]. rewrite mget_eye by auto.
      rewrite (bsum_ext n _ (fun k => (if k =? i then 1 else 0) * (if k =? j then 1 else 0)))%R. 2:{ intros k Hk. rewrite (mget_mT n r') by first [lia|apply is_mat_tab]. rewrite !mget_tab by auto. reflexivity. }
      pose proof (EckartYoung.bsum_dlt n i (fun k => if k =? j then 1 else 0)%R ltac:(lia)) as E. unfold EckartYoung.dlt in E. exact E. }
  assert (Eu : ui = test_input D (mo_cls o) m 1).
  { unfold ui, test_input. destruct (has_inputs (mo_cls o)); auto. f_equal. cbn [D dr_U]. rewrite Nat.eqb_refl. unfold col0. rewrite map_map. cbn. now rewrite map_id. }
  rewrite Eu in EJ, Hf. apply (fd_converges junk D r m 1 o e Hj HD Hr Hm Ho Hc Hw Hg x J tol); auto.
Qed.

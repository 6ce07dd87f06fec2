(* VerifyOpLib.v -- the verdict of verify() of the library's operators. *)
From Coq Require Import String ZArith Lra Lia.
From Verif Require Import MatAlg LinAlg OpsProofs JacProofs GalProofs AffProofs MonoEq SaveOps SaveFile VerifyTf VerifyOpProofs.
From Verif Require Import SpecVerifyOp.
#[local] Open Scope string_scope.
#[local] Open Scope nat_scope.
#[local] Open Scope list_scope.

Lemma noin_apply e s a b : has_inputs (cls_of e) = false -> apply e s a = apply e s b.
Proof. destruct e; cbn; try discriminate; auto. Qed.
Lemma noin_jac junk e q a b : has_inputs (cls_of e) = false -> jacobian junk e q a = jacobian junk e q b.
Proof. destruct e; cbn; try discriminate; auto. Qed.
Lemma col0_vec n k A : is_mat n k A -> is_vec n (col0 A).
Proof. intros HA. unfold is_vec, col0. rewrite map_length. apply (is_mat_len _ _ _ HA). Qed.
Lemma jac_mat junk r m e q u J : (forall n, length (junk n) = n) -> 0 < r -> 0 < m -> wf_op r m e -> is_vec r q -> is_vec m u ->
  jacobian junk e q u = Ok (JMat J) -> is_mat r r J.
Proof.
  assert (T : forall F, is_mat r r (tab2 r r F)).
  { intros F. unfold tab2. split; [now rewrite map_length, seq_length|]. apply Forall_forall. intros l Hl. apply in_map_iff in Hl. destruct Hl as (a & <- & _). now rewrite map_length, seq_length. }
  intros Hj Hr Hm Hw Hq Hu. destruct e as [c|A|d H|B|N]; cbn [jacobian wf_op] in *; try discriminate.
  - intros [= <-]. auto.
  - destruct (expand d junk H); [|discriminate]. rewrite (is_mat_nrows _ _ _ Hw). destruct (negb _); [discriminate|]. intros [= <-]. apply T.
  - rewrite (is_mat_nrows _ _ _ Hw). destruct (negb _); [discriminate|]. intros [= <-]. apply T.
Qed.
Lemma jac_kind junk e q u q' u' J J' : jacobian junk e q u = Ok J -> jacobian junk e q' u' = Ok J' -> (J = JZero <-> J' = JZero).
Proof.
  destruct e as [c|A|d H|B|N]; cbn [jacobian]; try (intros [= <-] [= <-]; split; auto; discriminate).
  - destruct (expand d junk H); [|discriminate]. destruct (negb _); [discriminate|]. destruct (negb _); [discriminate|]. intros [= <-] [= <-]. split; discriminate.
  - destruct (negb _); [discriminate|]. destruct (negb _); [discriminate|]. intros [= <-] [= <-]. split; discriminate.
Qed.
Lemma op_inputs_wf r m e : 0 < r -> wf_op r m e -> has_inputs (cls_of e) = true -> op_inputs e = m.
Proof.
  intros Hr Hw Hh. destruct e as [c|A|d H|B|N]; cbn in Hh; try discriminate; cbn [op_inputs wf_op] in *.
  - apply (ncols_is_mat r m B Hw Hr).
  - rewrite (ncols_is_mat r (r * m) N Hw Hr). unfold nrows. rewrite (is_mat_len _ _ _ Hw). rewrite Nat.mul_comm. apply Nat.div_mul. lia.
Qed.
Lemma apply_fun r m e q u : 0 < r -> 0 < m -> wf_op r m e -> is_vec r q -> is_vec m u -> exists y, apply e (V q) (V u) = Ok (V y) /\ is_vec r y.
Proof.
  intros Hr Hm Hw Hq Hu. eexists. split; [apply (apply_vec r m); auto|]. apply (is_vec_matvec _ _ _ _ (entries2_shape r m e Hw)).
Qed.
Lemma pos_is n : 0 < n -> pos_dim (Some n) = true.
Proof. destruct n; [lia|reflexivity]. Qed.
Lemma is_dim_refl n : is_dim (Some n) n = true.
Proof. apply Nat.eqb_refl. Qed.

Section Lib.
Variables (solve : mat -> mat -> res mat) (junk : nat -> vec) (I : spi) (lusolve : mat -> arr -> res arr) (D : draws) (k ntests r m : nat) (e : op).
Hypothesis Hsolve : solve_spec solve. Hypothesis Htotal : solve_total solve. Hypothesis Hj : forall n, length (junk n) = n.
Hypothesis Hlu : lu_spec lusolve. Hypothesis HD : drawn D. Hypothesis Hk : 0 < k. Hypothesis Hr : 0 < r. Hypothesis Hm : 0 < m.
Hypothesis Hw : wf_op r m e. Hypothesis Hg : size_ok r e. Hypothesis Hgp : 1 < r -> general_position D r.
Let o : mop := {| mo_cls := cls_of e; mo_ent := Some e |}.
Let u : option vec := test_input D (cls_of e) m k.
Let um : vec := col0 (dr_U D m k).
Lemma um_vec : is_vec m um. Proof. apply (col0_vec m k). apply HD. Qed.
Lemma lib_apply e' s : cls_of e' = cls_of e -> op_apply {| mo_cls := cls_of e; mo_ent := Some e' |} s (option_map V u) = apply e' s (V um).
Proof.
  intros Hc. unfold op_apply, u, test_input, takes_input. cbn [mo_ent mo_cls]. destruct (has_inputs (cls_of e)) eqn:E; cbn [option_map]; [reflexivity|].
  apply noin_apply. now rewrite Hc.
Qed.
Lemma lib_apply_mat s U : op_apply o s (option_map M (if has_inputs (cls_of e) then Some U else None)) = apply e s (M U).
Proof.
  unfold op_apply, takes_input. cbn [mo_ent mo_cls o]. destruct (has_inputs (cls_of e)) eqn:E; cbn [option_map]; [reflexivity|]. now apply noin_apply.
Qed.
Lemma lib_jacobian q : op_jacobian junk o q u = jacobian junk e q um.
Proof.
  unfold op_jacobian, u, test_input. cbn [mo_ent o]. destruct (has_inputs (cls_of e)) eqn:E; cbn [option_map]; [reflexivity|].
  destruct e; cbn in E; try discriminate; reflexivity.
Qed.
Lemma lib_apply_ok : v_apply (lib_op solve junk I calm o) r k (dr_Q D r k) (if has_inputs (cls_of e) then Some (dr_U D m k) else None) = Ok tt.
Proof.
  destruct HD as (HQ & HU & _). unfold v_apply. destruct (Nat.eqb_spec k 0) as [E|_]; [lia|]. cbn [bind vp_self lib_op lib_x x_apply].
  replace (option_map (fun U => V (col0 U)) (if has_inputs (cls_of e) then Some (dr_U D m k) else None)) with (option_map V u) by (unfold u, test_input; destruct (has_inputs (cls_of e)); reflexivity).
  rewrite (lib_apply e _ eq_refl). destruct (apply_fun r m e (col0 (dr_Q D r k)) um Hr Hm Hw (col0_vec r k _ (HQ r k)) um_vec) as (y & -> & Hy). cbn [bind vshape]. rewrite Hy, Nat.eqb_refl. cbn [rassert bind].
  rewrite lib_apply_mat. destruct (apply_columns r m k e _ _ Hr Hm Hw (HQ r k) (HU m k)) as (Dt & Y & _ & -> & _ & HY & _). cbn [bind mshape]. now rewrite (is_mat_shape r k Y).
Qed.
Lemma lib_jac_verdict :
  (v_jac D (lib_op solve junk I calm o) r (col0 (dr_Q D r k)) u (/ 10 ^ 5) = Ok tt \/ v_jac D (lib_op solve junk I calm o) r (col0 (dr_Q D r k)) u (/ 10 ^ 5) = Err VerificationError) /\
  (v_jac D (lib_op solve junk I calm o) r (col0 (dr_Q D r k)) u (/ 10 ^ 5) = Ok tt <-> jacobian_confirmed junk D o r u).
Proof.
  destruct HD as (HQ & HU & Hx & _). unfold v_jac. cbn [vp_jac lib_op]. rewrite lib_jacobian.
  destruct (jacobian_total junk r m e (col0 (dr_Q D r k)) um Hr Hm Hw (col0_vec r k _ (HQ r k)) um_vec Hg) as (J0 & E0).
  destruct (jacobian_total junk r m e (dr_x D r) um Hr Hm Hw (Hx r) um_vec Hg) as (J & EJ). pose proof (jac_kind _ _ _ _ _ _ _ _ E0 EJ) as K. rewrite E0. cbn [bind].
  unfold jacobian_confirmed. rewrite lib_jacobian, EJ. destruct J0 as [|A]; cbn [lib_jac].
  - assert (J = JZero) as -> by (now apply K). split; auto. split; auto. intros _. exists JZero. auto.
  - destruct J as [|J]; [destruct K as [_ K]; discriminate (K eq_refl)|]. rewrite (is_mat_shape r r A Hr) by (apply (jac_mat junk r m e _ um A Hj Hr Hm Hw (col0_vec r k _ (HQ r k)) um_vec E0)).
    pose proof (jac_mat junk r m e _ um J Hj Hr Hm Hw (Hx r) um_vec EJ) as HJ.
    set (f := fun q => matvec (entries2 e) (datavec e q um)).
    assert (HF : forall q, is_vec r q -> op_apply o (V q) (option_map V u) = Ok (V (f q)) /\ is_vec r (f q)).
    { intros q Hq. rewrite (lib_apply e _ eq_refl). destruct (apply_fun r m e q um Hr Hm Hw Hq um_vec) as (y & E & Hy). pose proof (apply_vec r m e q um Hr Hm Hw Hq um_vec) as E'. fold (f q) in E'.
      split; auto. rewrite E in E'. injection E' as <-. auto. }
    assert (Ht : (0 <= / 10 ^ 5)%R) by (left; apply Rinv_0_lt_compat, pow_lt; lra).
    destruct (fd_verdict r (fun x => op_apply o x (option_map V u)) f (fun x => do J <- op_jacobian junk o x u; Ok (lib_jac J)) (dr_x D r) (/ 10 ^ 5) J Hr (Hx r) HF Ht) as [B1 B2]; auto.
    { now rewrite lib_jacobian, EJ. }
    split; auto. rewrite B2. split.
    + intros FA. exists (JMat J). split; auto. intros g Hgq. destruct FA as (i & Hi & FA). exists i. split; auto.
      replace (quotients r g (dr_x D r) (/ 10 ^ i)) with (quotients r f (dr_x D r) (/ 10 ^ i)); auto.
      apply (mat_ext r r); auto using quotients_mat. intros a b Ha Hb. rewrite !mget_quotients by auto.
      assert (Q : forall q, is_vec r q -> g q = f q). { intros q Hq. destruct (HF q Hq) as [P _]. rewrite (Hgq q Hq) in P. congruence. }
      rewrite !Q by (auto using is_vec_along'). reflexivity.
    + intros (J' & [= <-] & FA). apply FA. intros q Hq. apply HF; auto.
Qed.
Lemma mT_vec n c A v : 0 < n -> 0 < c -> is_mat n c A -> is_vec n v -> matdot (mT A) (V v) = Ok (V (matvec (mT A) v)).
Proof. intros Hn Hc HA Hv. cbn [matdot]. rewrite (matvec_r_ok c n); auto. apply is_mat_mT; auto. Qed.
Lemma lib_gal_ok : v_gal lusolve D ntests (lib_op solve junk I calm o) r m u = Ok tt.
Proof.
  destruct HD as (_ & _ & _ & HV & HW & Hq). unfold v_gal. destruct (Nat.leb_spec r 1) as [|H1]; auto. cbn [vp_gal lib_op mo_ent o vp_hasin vp_self].
  set (rn := r / 2). assert (Hrn : 0 < rn) by (apply Nat.div_str_pos; lia). assert (Hle : rn <= r) by (apply Nat.div_le_upper_bound; lia).
  destruct (HV r rn Hle) as [HVm HVo]. pose proof (HW r rn Hle) as HWm. destruct (Hgp H1) as [Hcl (P & HP & HPi)]. fold rn in Hcl, HP, HPi.
  set (Vr := dr_V D r rn) in *. set (Wr := dr_W D r rn) in *.
  destruct (galerkin_total solve junk r rn m e Vr (Some Wr) Hsolve Hj Hr Hrn Hm Hw HVm HWm Hcl) as [g Eg]; [right; split; eauto|exact Hg|]. rewrite Eg. cbn [bind].
  destruct (galerkin_commutes solve junk r rn m e Vr (Some Wr) Hsolve Hj Hr Hrn Hm Hw HVm HWm Hcl g Eg) as [Hwg _]. pose proof (galerkin_cls _ _ _ _ _ _ Eg) as Hcg.
  assert (Hdim : forall g, wf_op rn m g -> cls_of g = cls_of e -> dims_are (has_inputs (mo_cls o)) rn m (lib_x {| mo_cls := mo_cls o; mo_ent := Some g |}) = Ok tt).
  { intros g' Hw' Hc'. unfold dims_are. cbn [lib_x x_r x_m mo_ent option_map mo_cls o]. rewrite (op_rows_wf rn m g' Hw'), is_dim_refl. cbn [rassert bind].
    destruct (has_inputs (cls_of e)) eqn:E; auto. rewrite (op_inputs_wf rn m g') by (auto; congruence). now rewrite is_dim_refl. }
  rewrite Hdim by auto. cbn [bind]. rewrite each_ok.
  2:{ intros i _. cbn [lib_x x_apply mo_cls o]. set (q := dr_q D 0 i rn). assert (Hqv : is_vec rn q) by apply Hq.
      rewrite (lib_apply e _ eq_refl).
      destruct (galerkin_inverse solve junk r rn m e Vr (Some Wr) Hsolve Hj Hr Hrn Hm Hw HVm HWm Hcl g P HP HPi Eg q um Hqv um_vec) as (y & E1 & E2). cbn in E2.
      rewrite E1. cbn [bind]. assert (Hy : is_vec r y).
      { destruct (apply_fun r m e (matvec Vr q) um Hr Hm Hw) as (y' & E & Hy'); [apply (is_vec_matvec r rn), HVm|apply um_vec|]. congruence. }
      rewrite (mT_vec r rn) by auto. cbn [bind].
      assert (EL : lusolve (matmul (mT Wr) Vr) (V (matvec (mT Wr) y)) = Ok (V (matvec P (matvec (mT Wr) y)))).
      { apply (Hlu rn); auto; [apply (is_mat_matmul rn r rn); auto; apply is_mat_mT; auto|apply (is_vec_matvec rn r), is_mat_mT; auto]. }
      rewrite EL. cbn [bind]. rewrite (lib_apply g _ Hcg), E2. cbn [bind]. rewrite bclose_refl. reflexivity. }
  cbn [bind].
  destruct (galerkin_total solve junk r rn m e Vr None Hsolve Hj Hr Hrn Hm Hw HVm HVm (or_introl HVo) (or_introl HVo) Hg) as [g2 Eg2]. rewrite Eg2. cbn [bind].
  pose proof (galerkin_cls _ _ _ _ _ _ Eg2) as Hcg2. apply each_ok. intros i _. cbn [lib_x x_apply mo_cls o]. set (q := dr_q D 1 i rn). assert (Hqv : is_vec rn q) by apply Hq.
  rewrite (lib_apply e _ eq_refl).
  destruct (galerkin_inverse solve junk r rn m e Vr None Hsolve Hj Hr Hrn Hm Hw HVm HVm (or_introl HVo) g2 (eye rn) (is_mat_eye rn)) with (q := q) (u := um) as (y & E1 & E2); auto using um_vec.
  { unfold testbasis. rewrite HVo. apply (matmul_eye_l rn rn); auto. apply is_mat_eye. }
  rewrite E1. cbn [bind]. assert (Hy : is_vec r y).
  { destruct (apply_fun r m e (matvec Vr q) um Hr Hm Hw) as (y' & E & Hy'); [apply (is_vec_matvec r rn), HVm|apply um_vec|]. congruence. }
  rewrite (mT_vec r rn) by auto. cbn [bind]. rewrite (lib_apply g2 _ Hcg2). unfold testbasis in E2. rewrite E2. cbn [bind]. rewrite (matvec_eye rn).
  - rewrite bclose_refl. reflexivity.
  - apply (is_vec_matvec rn r), is_mat_mT; auto.
Qed.
Lemma o_valid : valid_op o.
Proof. intros e' [= <-]. split; auto. exists r, m. auto. Qed.
Lemma lib_dims : dims_are (has_inputs (mo_cls o)) r m (lib_x o) = Ok tt.
Proof.
  unfold dims_are. cbn [lib_x x_r x_m mo_ent option_map mo_cls o]. rewrite (op_rows_wf r m e Hw), is_dim_refl. cbn [rassert bind].
  destruct (has_inputs (cls_of e)) eqn:E; auto. rewrite (op_inputs_wf r m e) by auto. now rewrite is_dim_refl.
Qed.
Lemma lib_same l : same_results D l ntests (lib_op solve junk I calm o) (lib_x o) r u = Ok tt.
Proof.
  unfold same_results. apply each_ok. intros i _. cbn [vp_self lib_op lib_x x_apply]. rewrite (lib_apply e _ eq_refl).
  destruct HD as (_ & _ & _ & _ & _ & Hq). destruct (apply_fun r m e (dr_q D l i r) um Hr Hm Hw (Hq l i r) um_vec) as (y & -> & _). cbn [bind]. now rewrite bclose_refl.
Qed.
Lemma lib_copy_ok : v_copy D ntests (lib_op solve junk I calm o) r m u = Ok tt.
Proof.
  unfold v_copy. cbn [vp_copy lib_op vp_self vp_hasin]. rewrite (mop_copy_id o o_valid). cbn [bind negb rassert]. rewrite String.eqb_refl. cbn [rassert bind]. rewrite lib_dims. cbn [bind]. apply lib_same.
Qed.
Lemma lib_save_ok f : f tempfile = None -> exists f', v_save D ntests (lib_op solve junk I calm o) r m u f = (f', Done) /\ same_files f f'.
Proof.
  intros Hf. destruct (op_back I o o_valid) as [HS HL]. destruct (HS f tempfile Hf) as [f1 E1]. pose proof (HL _ _ _ _ _ E1) as E2.
  unfold v_save. cbn [vp_save vp_load lib_op]. rewrite E1. cbn [mo_cls o] in *. rewrite E2. cbn [bind].
  assert (EV : v_loaded D ntests (lib_op solve junk I calm o) (lib_x o) r m u = Ok tt).
  { unfold v_loaded. cbn [vp_self lib_op vp_hasin]. rewrite String.eqb_refl. cbn [rassert bind]. rewrite lib_dims. cbn [bind]. apply lib_same. }
  rewrite EV. cbn [stat_of]. eexists. split; [reflexivity|]. intros p. unfold remove_file.
  assert (K : forall p, p <> tempfile -> f1 p = f p). { intros p' Hp. pose proof (save_other I calm f tempfile None (SvOp o) p' Hp) as Q. unfold untouched in Q. now rewrite E1 in Q. }
  destruct (f1 tempfile) as [[c|]|] eqn:E3.
  - destruct (String.eqb_spec tempfile p) as [<-|N]; [now rewrite Hf|]. apply K; auto.
  - exfalso. unfold load_file in E2. now rewrite E3 in E2.
  - exfalso. unfold load_file in E2. now rewrite E3 in E2.
Qed.
Lemma operator_verdict f : f tempfile = None -> exists f', same_files f f' /\
  (v_operator lusolve D k ntests (/ 10 ^ 5) (lib_op solve junk I calm o) f = (f', Done) \/ v_operator lusolve D k ntests (/ 10 ^ 5) (lib_op solve junk I calm o) f = (f', Raised VerificationError)) /\
  (v_operator lusolve D k ntests (/ 10 ^ 5) (lib_op solve junk I calm o) f = (f', Done) <-> jacobian_confirmed junk D o r u).
Proof.
  intros Hf. unfold v_operator. cbn [vp_self lib_op lib_x x_r x_m vp_hasin mo_ent mo_cls o option_map dim_val].
  rewrite (op_rows_wf r m e Hw). unfold v_dims. cbn [vp_self lib_op lib_x x_r x_m vp_hasin mo_ent mo_cls o option_map]. rewrite (op_rows_wf r m e Hw), (pos_is r Hr). cbn [rassert bind].
  assert (EM : rassert (negb (has_inputs (cls_of e)) || pos_dim (Some (op_inputs e))) = Ok tt).
  { destruct (has_inputs (cls_of e)) eqn:E; auto. rewrite (op_inputs_wf r m e) by auto. cbn [negb orb]. now rewrite (pos_is m Hm). }
  rewrite EM. cbn [bind].
  assert (EU : (if has_inputs (cls_of e) then Some (dr_U D (op_inputs e) k) else None) = (if has_inputs (cls_of e) then Some (dr_U D m k) else None)).
  { destruct (has_inputs (cls_of e)) eqn:E; auto. now rewrite (op_inputs_wf r m e) by auto. }
  rewrite EU. rewrite lib_apply_ok. cbn [bind].
  assert (Eu : option_map col0 (if has_inputs (cls_of e) then Some (dr_U D m k) else None) = u) by (unfold u, test_input; destruct (has_inputs (cls_of e)); auto). rewrite Eu.
  assert (EG : v_gal lusolve D ntests (lib_op solve junk I calm o) r (op_inputs e) u = Ok tt).
  { destruct (has_inputs (cls_of e)) eqn:E; [rewrite (op_inputs_wf r m e) by auto; apply lib_gal_ok|]. rewrite <- lib_gal_ok. unfold v_gal, dims_are. cbn [vp_hasin lib_op mo_cls o]. now rewrite E. }
  assert (EC : v_copy D ntests (lib_op solve junk I calm o) r (op_inputs e) u = Ok tt).
  { destruct (has_inputs (cls_of e)) eqn:E; [rewrite (op_inputs_wf r m e) by auto; apply lib_copy_ok|]. rewrite <- lib_copy_ok. unfold v_copy, dims_are. cbn [vp_hasin lib_op mo_cls o]. now rewrite E. }
  assert (ES : v_save D ntests (lib_op solve junk I calm o) r (op_inputs e) u f = v_save D ntests (lib_op solve junk I calm o) r m u f).
  { destruct (has_inputs (cls_of e)) eqn:E; [now rewrite (op_inputs_wf r m e) by auto|]. unfold v_save, v_loaded, dims_are. cbn [vp_hasin lib_op mo_cls o]. now rewrite E. }
  fold o. destruct lib_jac_verdict as [[EJ|EJ] HJ]; rewrite EJ; cbn [bind].
  - rewrite EG. cbn [bind]. rewrite EC, ES. destruct (lib_save_ok f Hf) as (f' & E & HF). rewrite E. exists f'. split; auto. split; auto. split; auto. intros _. now apply HJ.
  - exists f. split; [intros p; auto|]. split; auto. split; [discriminate|]. intros H. apply HJ in H. congruence.
Qed.
End Lib.
Lemma some_op c r m : exists e, wf_op r m e /\ cls_of e = c.
Proof.
  assert (Z : forall a b, is_mat a b (repeat (repeat 0%R b) a)).
  { intros a b. split; [apply repeat_length|]. apply Forall_forall. intros l Hl. apply repeat_spec in Hl. subst. apply repeat_length. }
  destruct c as [| |d| |]; [exists (OConst (repeat 0%R r))|exists (OLin (repeat (repeat 0%R r) r))|exists (OPoly d (repeat (repeat 0%R (operator_dimension d r)) r))|exists (OInp (repeat (repeat 0%R m) r))|exists (OStIn (repeat (repeat 0%R (r * m)) r))];
    split; auto; cbn; auto. unfold is_vec. apply repeat_length.
Qed.
Lemma static_ok c D k r m : drawn D -> 0 < k -> 0 < r -> 0 < m -> v_static (lib_class c) D k r m = Ok tt.
Proof.
  intros (HQ & HU & _) Hk Hr Hm. unfold v_static. cbn [k_dim k_data lib_class]. destruct (some_op c r m) as (e & Hw & Hc).
  destruct (apply_columns r m k e _ _ Hr Hm Hw (HQ r k) (HU m k)) as (B & Y & EB & _ & HB & _). assert (Hp : 0 < opdim (proto c) r m).
  { rewrite <- Hc, opdim_proto. destruct e as [|A|d H|B'|N]; cbn [opdim]; auto; try lia. apply opdim_pos; auto. }
  rewrite (pos_is _ Hp). cbn [rassert bind dim_val]. rewrite <- Hc, datablock_proto, EB. cbn [bind]. rewrite opdim_proto. rewrite is_mat_shape; auto. rewrite <- Hc, opdim_proto in Hp. auto.
Qed.
Lemma library_verdict solve junk I lusolve D k ntests r m o e : solve_spec solve -> solve_total solve -> (forall n, length (junk n) = n) -> lu_spec lusolve ->
  drawn D -> 0 < k -> 0 < r -> 0 < m -> mo_ent o = Some e -> cls_of e = mo_cls o -> wf_op r m e -> size_ok r e -> (1 < r -> general_position D r) ->
  forall rt mt f, 0 < rt -> 0 < mt -> f tempfile = None ->
  exists f', same_files f f' /\
  (op_verify solve junk I calm lusolve D k ntests rt mt o f = (f', Done) \/ op_verify solve junk I calm lusolve D k ntests rt mt o f = (f', Raised VerificationError)) /\
  (op_verify solve junk I calm lusolve D k ntests rt mt o f = (f', Done) <-> jacobian_confirmed junk D o r (test_input D (mo_cls o) m k)).
Proof.
  intros H1 H2 H3 H4 H5 H6 H7 H8 Ho Hc Hw Hg Hp rt mt f Hrt Hmt Hf. destruct o as [c oe]. cbn [mo_ent mo_cls] in *. subst oe c.
  unfold op_verify, v_opinf. cbn [mo_cls]. rewrite static_ok by auto. cbn [uncal mo_ent negb]. apply operator_verdict; auto.
Qed.

(* VerifyOpRest.v -- verify() of operators: users' classes, the temporary file, classes without static methods. *)
From Coq Require Import String ZArith Lra Lia.
From Verif Require Import MatAlg LinAlg OpsProofs GalProofs AffProofs SaveFile VerifyTf VerifyOpProofs VerifyOpLib SpecParam.
From Verif Require Import SpecVerifyOp.
#[local] Open Scope string_scope.
#[local] Open Scope nat_scope.
#[local] Open Scope list_scope.

Lemma rassert_inv b : rassert b = Ok tt -> b = true.
Proof. destruct b; auto; discriminate. Qed.
Lemma bind_inv {A} (x : res A) (k : A -> res unit) : (do a <- x; k a) = Ok tt -> exists a, x = Ok a /\ k a = Ok tt.
Proof. destruct x as [a|]; [|discriminate]. intros H. eauto. Qed.
Lemma is_dim_inv x n : is_dim x n = true -> x = Some n.
Proof. destruct x; [|discriminate]. cbn. intros H. apply Nat.eqb_eq in H. now subst. Qed.
Ltac binv H := let a := fresh "a" in let E := fresh "E" in apply bind_inv in H; destruct H as (a & E & H).

Lemma dims_are_inv b r m out : dims_are b r m out = Ok tt -> has_dims b r m out.
Proof.
  unfold dims_are, has_dims. intros H. binv H. destruct a. apply rassert_inv, is_dim_inv in E. split; auto. intros ->. now apply rassert_inv, is_dim_inv in H.
Qed.
Lemma same_results_inv D l n o out r u : same_results D l n o out r u = Ok tt -> agree_on D l n out (vp_self o) r u.
Proof.
  unfold same_results, agree_on. intros H i Hi. pose proof (each_inv _ _ H i) as K. rewrite in_seq in K. specialize (K ltac:(lia)). cbv zeta in K.
  binv K. binv K. binv K. apply rassert_inv in K. subst. apply bclose_iff in E1. eauto.
Qed.
Lemma loaded_inv D n o out r m u : v_loaded D n o out r m u = Ok tt ->
  x_class out = x_class (vp_self o) /\ has_dims (vp_hasin o) r m out /\ agree_on D 3 n out (vp_self o) r u.
Proof.
  unfold v_loaded. intros H. binv H. binv H. destruct a, a0. apply rassert_inv, String.eqb_eq in E. apply dims_are_inv in E0. split; [|split]; auto. now apply same_results_inv.
Qed.
Lemma copy_inv D n o r m u : v_copy D n o r m u = Ok tt ->
  exists c, vp_copy o = Ok (false, c) /\ x_class c = x_class (vp_self o) /\ has_dims (vp_hasin o) r m c /\ agree_on D 2 n c (vp_self o) r u.
Proof.
  unfold v_copy. intros H. binv H. destruct a as [b out]. binv H. binv H. binv H. destruct a, a0, a1. apply rassert_inv in E0. destruct b; [discriminate|].
  apply rassert_inv, String.eqb_eq in E1. apply dims_are_inv in E2. exists out. repeat (split; auto). now apply same_results_inv.
Qed.
Lemma gal_inv lusolve D n o r m u g : v_gal lusolve D n o r m u = Ok tt -> vp_gal o = Some g -> 1 < r ->
  let rn := r / 2 in let Vr := dr_V D r rn in let Wr := dr_W D r rn in
  exists p p2, g Vr (Some Wr) = Ok (Some p) /\ has_dims (vp_hasin o) rn m p /\
    projects_on D 0 n Vr (fun y => do b <- matdot (mT Wr) y; lusolve (matmul (mT Wr) Vr) b) (vp_self o) p rn u /\
    g Vr None = Ok (Some p2) /\ projects_on D 1 n Vr (matdot (mT Vr)) (vp_self o) p2 rn u.
Proof.
  unfold v_gal. intros H Eg Hr. destruct (Nat.leb_spec r 1) as [|_]; [lia|]. rewrite Eg in H. cbv zeta in *.
  binv H. destruct a as [p|]; [|discriminate]. binv H. destruct a. apply dims_are_inv in E0. binv H. destruct a. binv H. destruct a as [p2|]; [|discriminate].
  exists p, p2. split; [|split; [|split; [|split]]]; auto.
  - intros i Hi. pose proof (each_inv _ _ E1 i) as K. rewrite in_seq in K. specialize (K ltac:(lia)). cbv beta in K. binv K. binv K. binv K. binv K. binv K. apply rassert_inv in K. subst.
    match goal with E : bclose _ _ = Ok true |- _ => apply bclose_iff in E end. exists a, a1, a2. split; auto. split; [|split]; auto. rewrite E4. auto.
  - intros i Hi. pose proof (each_inv _ _ H i) as K. rewrite in_seq in K. specialize (K ltac:(lia)). cbv beta in K. binv K. binv K. binv K. binv K. apply rassert_inv in K. subst.
    match goal with E : bclose _ _ = Ok true |- _ => apply bclose_iff in E end. eauto 8.
Qed.
Lemma shape_inv n k A : shape_is n k A = true -> nrows A = n /\ ncols A = k.
Proof. unfold shape_is. intros H. apply andb_prop in H. destruct H as [H1 H2]. apply Nat.eqb_eq in H1, H2. auto. Qed.
Lemma accepted_checked lusolve D k ntests tol o f f' : (0 <= tol)%R -> v_operator lusolve D k ntests tol o f = (f', Done) ->
  exists r m, checked lusolve D k ntests tol o f r m.
Proof.
  intros Ht. unfold v_operator. set (r := dim_val (x_r (vp_self o))). set (m := dim_val (x_m (vp_self o))). exists r, m. revert H. set (Q := dr_Q D r k). set (U := if vp_hasin o then Some (dr_U D m k) else None).
  intros H. match type of H with match ?b with _ => _ end = _ => destruct b as [[]|] eqn:E; [|discriminate] end.
  binv E. binv E. binv E. binv E. destruct a, a0, a1, a2.
  unfold v_dims in E0. binv E0. destruct a. apply rassert_inv in E4, E0. unfold checked. fold Q. fold U.
  assert (D1 : x_r (vp_self o) = Some r /\ 0 < r). { unfold r. destruct (x_r (vp_self o)) as [[|n]|]; cbn in E4 |- *; try discriminate. split; [auto|lia]. }
  assert (D2 : vp_hasin o = true -> x_m (vp_self o) = Some m /\ 0 < m). { unfold m. intros Eh. rewrite Eh in E0. destruct (x_m (vp_self o)) as [[|n]|]; cbn in E0 |- *; try discriminate. split; [auto|lia]. }
  split; [split; [apply D1|intros; apply D2; auto]|]. split; [apply D1|]. split; [intros; apply D2; auto|].
  unfold v_apply in E1. binv E1. binv E1. binv E1. binv E1. destruct a1. apply rassert_inv in E1, E7.
  replace (option_map (fun U0 => V (col0 U0)) U) with (option_map V (option_map col0 U)) in E6 by (destruct U; reflexivity).
  split. { destruct a0 as [y|]; [|discriminate]. cbn in E7. apply Nat.eqb_eq in E7. eauto. }
  split. { destruct a2 as [|Y]; [discriminate|]. cbn in E1. apply shape_inv in E1. eauto. }
  split. { intros df Edf. unfold v_jac in E2. rewrite Edf in E2. binv E2. destruct a1 as [|A|]; [left; auto| |discriminate]. right. destruct (shape_is r r A) eqn:ES; [|discriminate]. apply shape_inv in ES. split; [eauto|].
    intros F B HF Hx EB HB. apply (fd_verdict r (fun x => x_apply (vp_self o) x (option_map V (option_map col0 U))) F (fun x => df x (option_map col0 U)) (dr_x D r) tol B); auto. apply D1. }
  split. { intros g Eg Hr. apply gal_inv; auto. }
  split. { now apply copy_inv. }
  intros sv ld f1 c Es El Ev Ec. unfold v_save in H. rewrite Es, El, Ev, Ec in H. inversion H as [[Hf Hd]]. apply loaded_inv. destruct (v_loaded _ _ _ _ _ _ _) as [[]|]; auto; discriminate.
Qed.

(* ---- the temporary file ----------------------------------------------------------------------------------------------- *)
Lemma remove_other p q f : q <> p -> remove_file p f q = f q.
Proof. intros N. unfold remove_file. destruct (f p) as [[c|]|]; auto. destruct (String.eqb_spec p q); congruence. Qed.
Lemma remove_gone p f : ~ is_file (remove_file p f) p.
Proof.
  intros [c H]. unfold remove_file in H. destruct (f p) as [[c'|]|] eqn:E; try congruence. rewrite String.eqb_refl in H. discriminate.
Qed.
Lemma files_kept lusolve D k ntests tol o f f' s : (forall sv, vp_save o = Some sv -> writes_only sv) -> v_operator lusolve D k ntests tol o f = (f', s) ->
  (forall p, p <> tempfile -> f' p = f p) /\ (s <> Killed -> f' tempfile = f tempfile \/ ~ is_file f' tempfile).
Proof.
  intros HW. unfold v_operator. match goal with |- match ?b with _ => _ end = _ -> _ => destruct b as [[]|e] eqn:E end.
  2:{ intros [= <- <-]. auto. }
  clear E. unfold v_save. set (sv := match vp_save o with None => _ | Some sv => _ end).
  assert (K : forall p, p <> tempfile -> fst sv p = f p). { unfold sv. intros p Hp. destruct (vp_save o) as [g|]; auto. apply (HW g eq_refl f tempfile p Hp). }
  destruct sv as [f1 s1]. cbn [fst] in K.
  assert (G : forall x s', (remove_file tempfile f1, x) = (f', s') -> (forall p, p <> tempfile -> f' p = f p) /\ (s' <> Killed -> f' tempfile = f tempfile \/ ~ is_file f' tempfile)).
  { intros x s' [= <- <-]. split; [intros p Hp; rewrite remove_other; auto|]. intros _. right. apply remove_gone. }
  destruct s1 as [|e|].
  - destruct (vp_load o); apply G.
  - destruct e; destruct (vp_load o); apply G.
  - destruct (vp_load o); intros [= <- <-]; (split; [auto|congruence]).
Qed.
(* the file is the user's own *)
Lemma user_file_lost solve junk I lusolve D k ntests r m o e : solve_spec solve -> solve_total solve -> (forall n, length (junk n) = n) -> lu_spec lusolve ->
  drawn D -> 0 < k -> 0 < r -> 0 < m -> mo_ent o = Some e -> cls_of e = mo_cls o -> wf_op r m e -> size_ok r e -> (1 < r -> general_position D r) ->
  jacobian_confirmed junk D o r (test_input D (mo_cls o) m k) ->
  forall rt mt f, 0 < rt -> 0 < mt -> is_file f tempfile ->
  exists f', op_verify solve junk I calm lusolve D k ntests rt mt o f = (f', Raised FileExistsError) /\ f' tempfile = None /\ forall p, p <> tempfile -> f' p = f p.
Proof.
  intros H1 H2 H3 H4 H5 H6 H7 H8 Ho Hc Hw Hg Hgp HJ rt mt f Hrt Hmt Hf.
  set (f0 := remove_file tempfile f). assert (F0 : f0 tempfile = None). { unfold f0, remove_file. destruct Hf as [c Ec]. rewrite Ec. now rewrite String.eqb_refl. }
  destruct (library_verdict solve junk I lusolve D k ntests r m o e H1 H2 H3 H4 H5 H6 H7 H8 Ho Hc Hw Hg Hgp rt mt f0 Hrt Hmt F0) as (f' & _ & _ & HV).
  apply HV in HJ. clear HV. exists f0. split; [|split; auto; intros p Hp; unfold f0; now apply remove_other].
  unfold op_verify, v_opinf in *. destruct (v_static _ _ _ _ _) as [[]|]; [|discriminate]. assert (U : uncal o = false) by (unfold uncal; now rewrite Ho). rewrite U in *. cbn [negb] in *.
  unfold v_operator in *. match type of HJ with match ?b with _ => _ end = _ => destruct b as [[]|]; [|discriminate] end.
  unfold v_save. cbn [vp_save vp_load lib_op]. rewrite save_default; auto. intros; discriminate.
Qed.

(* ---- classes ------------------------------------------------------------------------------------------------------------ *)
Lemma untrained_done solve junk I w lusolve D k ntests o r m f : drawn D -> 0 < k -> 0 < r -> 0 < m -> mo_ent o = None ->
  op_verify solve junk I w lusolve D k ntests r m o f = (f, Done).
Proof.
  intros H1 H2 H3 H4 Ho. unfold op_verify, v_opinf. rewrite static_ok by auto. unfold uncal. now rewrite Ho.
Qed.
Lemma polynomial_never lusolve D k ntests r m t o f : v_opinf lusolve D k ntests r m polynomial_class t o f = (f, Raised VerificationError).
Proof. reflexivity. Qed.
Lemma class_accepted lusolve D k ntests r m c t o f f' : v_opinf lusolve D k ntests r m c t o f = (f', Done) ->
  exists dim data n B, k_dim c = Some dim /\ k_data c = Some data /\ dim r m = Some n /\ 0 < n /\ data (dr_Q D r k) (dr_U D m k) = Ok (Some B) /\ nrows B = n /\ ncols B = k.
Proof.
  unfold v_opinf. destruct (v_static _ _ _ _ _) as [[]|] eqn:E; [|discriminate]. intros _. unfold v_static in E. destruct (k_dim c) as [dim|]; [|discriminate]. binv E. destruct a. apply rassert_inv in E0.
  destruct (k_data c) as [data|]; [|discriminate]. binv E. destruct a as [B|]; [|discriminate]. apply rassert_inv, shape_inv in E. exists dim, data, (dim_val (dim r m)), B.
  destruct (dim r m) as [[|n]|]; try discriminate. cbn [dim_val] in *. repeat (split; auto; try lia).
Qed.

(* ---- parametric operators -------------------------------------------------------------------------------------------------- *)
Lemma class_of_cls e : class_of e = cls_of e. Proof. destruct e; reflexivity. Qed.
Lemma ev_accepted r m W c draw draw1 t o p : 0 < r -> 0 < m -> w_base W = true -> w_r W = Some r -> (has_inputs c = true -> w_m W = Some m) -> w_hasin W = has_inputs c -> w_p W = Some p ->
  pshape_is (Some p) (test_param draw draw1 (Some p) t) = true ->
  w_eval W (test_param draw draw1 (Some p) t) = Ok (ev_lib c o) -> wf_op r m o -> cls_of o = c -> v_param W draw draw1 t = Ok tt.
Proof.
  intros Hr Hm Hb Er Em Eh Ep Hs Ev Hw Hc. unfold v_param. rewrite Hb, Er, Ep, Eh. rewrite (pos_is r Hr). cbn [rassert bind].
  assert (E1 : rassert (negb (has_inputs c) || pos_dim (w_m W)) = Ok tt). { destruct (has_inputs c); auto. rewrite Em by auto. rewrite pos_is; auto. }
  rewrite E1. cbn [bind]. rewrite Hs. cbn [negb]. rewrite Ev. cbn [bind ev_lib e_inst e_nonpar e_r e_hasin e_m]. rewrite class_of_cls, Hc.
  replace (cls_eqb c c) with true by (symmetry; destruct c as [| |[]| |]; reflexivity). cbn [rassert bind]. rewrite (op_rows_wf r m o Hw). cbn [dim_val is_dim]. rewrite Nat.eqb_refl. cbn [andb rassert bind].
  destruct (has_inputs c) eqn:Ei; cbn [rassert bind negb]; auto. rewrite Em by auto. cbn [dim_val is_dim]. rewrite (op_inputs_wf r m o) by (auto; now rewrite Hc). now rewrite Nat.eqb_refl.
Qed.
Lemma first_family r m c ops : 0 < r -> SpecParam.family r m c ops -> 0 < length ops ->
  fst (first_dims (Some ops)) = Some r /\ (has_inputs c = true -> snd (first_dims (Some ops)) = Some m).
Proof.
  intros Hr HF HL. destruct ops as [|e ops]; [cbn in HL; lia|]. inversion HF as [|? ? [Hw Hc] _]; subst. cbn [first_dims fst snd]. rewrite (op_rows_wf r m e Hw). split; auto.
  intros. now rewrite (op_inputs_wf r m e).
Qed.
Lemma affine_accepted r m a ops p draw draw1 t th : 0 < r -> 0 < m -> affine_of r m a ops -> a_pdim a = Some p -> length (draw p) = p ->
  (forall s, t = Some s -> exists v, s = PV v /\ length v = p) ->
  thetas a (match t with Some s => s | None => PV (draw p) end) = Ok th -> length th = a_nterms a -> v_param (aff_w a) draw draw1 t = Ok tt.
Proof.
  intros Hr Hm Ha Ep Hd Ht Hth HL. set (s := match t with Some s => s | None => PV (draw p) end) in *.
  assert (Hs : exists v, s = PV v /\ length v = p) by (unfold s; destruct t; [apply Ht; auto|eauto]). destruct Hs as (v & Es & Hv).
  assert (Et : test_param draw draw1 (Some p) t = PV v) by (rewrite <- Es; reflexivity).
  destruct (evaluate_ok r m a ops s th Hr Ha) as (o & Eo & Hw & Hc & _); auto. { rewrite Ep, Es. exact Hv. }
  destruct Ha as (He & HF & HLo & Hn). destruct (first_family r m _ ops Hr HF ltac:(lia)) as [F1 F2].
  apply (ev_accepted r m (aff_w a) (a_cls a) draw draw1 t o p); auto; cbn [aff_w w_r w_m w_hasin w_p w_eval]; try (rewrite He; auto).
  - rewrite Et. cbn. now apply Nat.eqb_eq.
  - rewrite Et, <- Es, Eo. reflexivity.
Qed.
Lemma affine_unset r m a ops draw draw1 t : 0 < r -> 0 < m -> affine_of r m a ops -> a_pdim a = None -> v_param (aff_w a) draw draw1 t = Err ValueError.
Proof.
  intros Hr Hm (He & HF & HL & Hn) Ep. destruct (first_family r m _ ops Hr HF ltac:(lia)) as [F1 F2]. unfold v_param. cbn [aff_w w_base w_r w_m w_hasin w_p]. rewrite He, F1, (pos_is r Hr). cbn [rassert bind].
  assert (E1 : rassert (negb (has_inputs (a_cls a)) || pos_dim (snd (first_dims (Some ops)))) = Ok tt). { destruct (has_inputs (a_cls a)); auto. rewrite F2 by auto. rewrite pos_is; auto. }
  rewrite E1. cbn [bind]. rewrite Ep. unfold pshape_is. destruct (test_param draw draw1 None t); reflexivity.
Qed.
Lemma untrained_param draw draw1 t : (forall a, a_entries a = None -> v_param (aff_w a) draw draw1 t = Err VerificationError) /\
  (forall i, i_entries i = None -> v_param (itp_w i) draw draw1 t = Err VerificationError).
Proof. split; intros a E; unfold v_param; cbn [aff_w itp_w w_base w_r w_m w_hasin]; rewrite E; reflexivity. Qed.
Lemma interp_accepted r m i ops F p draw draw1 t v E : 0 < r -> 0 < m -> i_entries i = Some ops -> SpecParam.family r m (i_cls i) ops -> 0 < length ops -> i_pdim i = Some p ->
  i_interp i = Some F -> (match t with Some s => s | None => PV (draw p) end) = PV v -> length v = p ->
  F (if p =? 1 then PS (vget v 0) else PV v) = Ok E -> is_mat r (opdim (proto (i_cls i)) r m) E -> v_param (itp_w i) draw draw1 t = Ok tt.
Proof.
  intros Hr Hm He HF HL Ep EF Es Hv EE HE. destruct (first_family r m _ ops Hr HF HL) as [F1 F2]. destruct (construct_ok (i_cls i) r m E Hr HE) as (o & Eo & Hw & Hc & _).
  assert (Et : test_param draw draw1 (Some p) t = PV v) by (rewrite <- Es; reflexivity).
  apply (ev_accepted r m (itp_w i) (i_cls i) draw draw1 t o p); auto; cbn [itp_w w_r w_m w_hasin w_p w_eval]; try (rewrite He; auto).
  - rewrite Et. cbn. now apply Nat.eqb_eq.
  - rewrite Et. unfold i_evaluate. rewrite He, EF, Ep. cbn [plen]. rewrite Hv, Nat.eqb_refl. cbn [negb unscalar]. unfold vget in EE. rewrite EE. cbn [bind]. rewrite Eo. reflexivity.
Qed.
Lemma affine_then r m a ops mu p draw draw1 th th' : 0 < r -> 0 < m -> affine_of r m a ops -> a_pdim a = None -> plen mu = p -> length (draw p) = p ->
  thetas a mu = Ok th -> thetas a (PV (draw p)) = Ok th' -> length th' = a_nterms a ->
  v_param (aff_w a) draw draw1 None = Err ValueError /\ v_param (aff_w (fst (aff_evaluate a mu))) draw draw1 None = Ok tt.
Proof.
  intros Hr Hm Ha Ep Hp Hd H1 H2 H3. split; [apply (affine_unset r m a ops); auto|]. pose proof Ha as (He & HF & HL & Hn).
  unfold aff_evaluate. rewrite He, Ep. cbn [fst]. rewrite Hp.
  apply (affine_accepted r m _ ops p) with (th := th'); auto; cbn [a_entries a_cls a_nterms a_pdim]; auto.
  - repeat (split; auto).
  - discriminate.
Qed.
Lemma param_accepted W draw draw1 t : v_param W draw draw1 t = Ok tt ->
  exists r p v e, w_base W = true /\ w_r W = Some r /\ 0 < r /\ w_p W = Some p /\ test_param draw draw1 (Some p) t = PV v /\ length v = p /\ w_eval W (PV v) = Ok e /\
  e_inst e = true /\ e_nonpar e = true /\ e_r e = Some r /\ e_hasin e = w_hasin W /\ (w_hasin W = true -> exists m, 0 < m /\ w_m W = Some m /\ e_m e = Some m).
Proof.
  unfold v_param. intros H. binv H. binv H. binv H. destruct a, a0, a1. apply rassert_inv in E, E0, E1. cbv zeta in H.
  destruct (w_r W) as [[|r]|] eqn:Er; try discriminate. destruct (w_p W) as [p|] eqn:Ep. 2:{ unfold pshape_is in H. destruct (test_param _ _ _ _); discriminate. }
  destruct (test_param draw draw1 (Some p) t) as [|v] eqn:Et; [discriminate|]. destruct (pshape_is (Some p) (PV v)) eqn:Es; [|discriminate]. cbn [negb] in H. apply Nat.eqb_eq in Es.
  binv H. binv H. binv H. binv H. destruct a0, a1, a2. apply rassert_inv in E3, E4, E5. destruct (e_r a) as [re|] eqn:Ere; [|rewrite andb_false_r in E5; discriminate].
  cbn [dim_val is_dim] in E5. rewrite andb_true_r in E5. apply Nat.eqb_eq in E5. subst re. exists (S r), p, v, a. repeat (split; [solve [auto|lia]|]).
  destruct (w_hasin W).
  - binv H. destruct a0. apply rassert_inv in E5, H. split; auto. intros _. cbn in E1. destruct (w_m W) as [[|m]|]; try discriminate. exists (S m). split; [lia|]. split; auto. now apply is_dim_inv in H.
  - apply rassert_inv in H. split; [now destruct (e_hasin a)|discriminate].
Qed.

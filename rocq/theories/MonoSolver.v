(* MonoSolver.v -- what a least-squares solver inside a model remembers, whatever was done to it. *)
From Coq Require Import ZArith String.
From Verif Require Import SolverProofs SolverTik SolverSvd SolverTls SolverReg SolverCond SolverResid.
From Verif Require Export MonoLists.
#[local] Open Scope nat_scope.

Definition rects (l : list mat) : Prop := Forall rect l.
(* holds of every solver object, also after calls that raised *)
Definition winv (X : lsx) (s : lsq) : Prop :=
  match s with
  | LPlain p => True
  | LL2 p => l2_reach (x_lsvd X) p
  | LL2D p => ld_reach (x_lsvd X) p
  | LTik p => forall G, tk_reg p = Some G -> rect G
  | LTikD p => forall Gs, td_reg p = Some Gs -> rects Gs
  | LTsvd p => ts_reach (x_lsvd X) p
  | LTls p => True
  end.
(* holds after a successful fit(D, Z), also if regularizers were (successfully) changed later *)
Definition clean (X : lsx) (s : lsq) (D Z : mat) : Prop :=
  (exists k d r, dims D Z k d r) /\
  match s with
  | LPlain p => pl_data p = Some (D, Z)
  | LL2 p => l2_reach (x_lsvd X) p /\ odata (l2_pre p) = Some (D, Z)
  | LL2D p => ld_reach (x_lsvd X) p /\ odata (ld_pre p) = Some (D, Z) /\ forall v, ld_reg p = Some v -> length v = nrows Z
  | LTik p => tk_reach p /\ tk_data p = Some (D, Z) /\ forall G, tk_reg p = Some G -> is_mat (ncols D) (ncols D) G
  | LTikD p => td_reach p /\ td_data p = Some (D, Z) /\
               forall Gs, td_reg p = Some Gs -> length Gs = nrows Z /\ Forall (is_mat (ncols D) (ncols D)) Gs
  | LTsvd p => ts_reach (x_lsvd X) p /\ odata (ts_pre p) = Some (D, Z)
  | LTls p => tl_data p = Some (D, Z) /\ exists s0 D0 Z0, good_arr D0 /\ good_arr Z0 /\ tls_fit (x_lsvd X) (x_lsolve X) s0 D0 Z0 = (p, Ok tt)
  end.

Lemma rect_shape G n : rect G -> shape_is n n G = true -> is_mat n n G.
Proof. intros (a & b & Ha & Hb & HG) H. unfold shape_is in H. apply Bool.andb_true_iff in H. destruct H as [H1 H2].
  apply Nat.eqb_eq in H1, H2. rewrite (is_mat_nrows _ _ _ HG) in H1. rewrite (ncols_is_mat a b G HG Ha) in H2. subst. auto. Qed.
Lemma base_dims D Z D' Z' : good_arr D -> good_arr Z -> base_fit D Z = Ok (D', Z') ->
  D = M D' /\ Z' = atleast_2d Z /\ exists k d r, dims D' Z' k d r.
Proof. intros HD HZ E. destruct (base_fit_ok D Z D' Z' HD HZ E) as (H1 & H2 & k & d & r & H3). split; auto. split; auto.
  exists k, d, r. unfold dims. tauto. Qed.
Lemma svd_dims svd D Z p : good_arr D -> good_arr Z -> svd_spec svd -> svd_fit svd D Z = Ok p ->
  D = M (sp_D p) /\ sp_Z p = atleast_2d Z /\ exists k d r, dims (sp_D p) (sp_Z p) k d r.
Proof. intros HD HZ HS E. destruct (svd_fit_ok svd D Z p HD HZ HS E) as (H1 & H2 & k & d & r & Phi & H3). split; auto. split; auto.
  exists k, d, r. unfold dims, pre_ok in *. tauto. Qed.

Lemma tk_fit_reach s D Z s' : good_arr D -> good_arr Z -> tk_fit s D Z = (s', Ok tt) -> tk_reach s'.
Proof. intros HD HZ E.
  set (s0 := {| tk_reg := None; tk_method := tk_method s; tk_opts := tk_opts s; tk_data := None; tk_pre := None |}).
  set (g := match tk_reg s with None => None | Some G => Some (M G) end).
  apply (tkr_fit (fst (tk_set s0 g)) D Z); auto. { apply tkr_reg. apply tkr_new. }
  rewrite <- E. unfold tk_fit. destruct (base_fit D Z) as [[D' Z']|] eqn:EB; [|unfold tk_fit in E; rewrite EB in E; discriminate].
  unfold g. unfold tk_fit in E. rewrite EB in E. destruct (tk_reg s) as [G|] eqn:EG; cbn [tk_set fst tk_store tk_reg tk_method tk_opts s0 tk_data tk_pre] in *; auto.
  destruct (tk_check (Some (D', Z')) G); auto. discriminate. Qed.
Lemma mapM_td_one Gs : mapM td_one (map M Gs) = Ok Gs.
Proof. induction Gs as [|G Gs IH]; cbn; auto. rewrite IH. auto. Qed.
Lemma td_fit_reach s D Z s' : good_arr D -> good_arr Z -> td_fit s D Z = (s', Ok tt) -> td_reach s'.
Proof. intros HD HZ E.
  set (s0 := {| td_reg := None; td_method := td_method s; td_data := None; td_pre := None |}).
  set (g := match td_reg s with None => None | Some G => Some (map M G) end).
  apply (tdr_fit (fst (td_set s0 g)) D Z); auto. { apply tdr_reg. apply tdr_new. }
  rewrite <- E. unfold td_fit. destruct (base_fit D Z) as [[D' Z']|] eqn:EB; [|unfold td_fit in E; rewrite EB in E; discriminate].
  unfold g. unfold td_fit in E. rewrite EB in E. destruct (td_reg s) as [G|] eqn:EG; cbn [td_set].
  - rewrite mapM_td_one. cbn [fst td_store td_reg td_method s0 td_data td_pre] in *. destruct (td_check (Some (D', Z')) G); [reflexivity|discriminate].
  - cbn. auto. Qed.

Lemma lsq_fit_winv X s D Z : winv X s -> good_arr D -> good_arr Z -> winv X (fst (lsq_fit X s D Z)).
Proof. intros H HD HZ. destruct s; cbn [lsq_fit winv] in *; unfold keep, wrap.
  - destruct (plain_fit s D Z); cbn; exact I.
  - destruct (l2_fit (x_lsvd X) s D Z) eqn:E; cbn; [exact (l2r_fit _ s D Z _ H HD HZ E)|exact H].
  - cbn. apply ldr_fit; auto.
  - cbn. intros G HG. unfold tk_fit in HG. destruct (base_fit D Z) as [[D' Z']|]; cbn in HG; auto.
    destruct (match tk_reg s with Some G => _ | None => _ end); cbn in HG; auto.
  - cbn. intros G HG. unfold td_fit in HG. destruct (base_fit D Z) as [[D' Z']|]; cbn in HG; auto.
    destruct (match td_reg s with Some G => _ | None => _ end); cbn in HG; auto.
  - destruct (ts_fit (x_lsvd X) s D Z) eqn:E; cbn; [exact (tsr_fit _ s D Z _ H HD HZ E)|exact H].
  - auto. Qed.

Lemma lsq_fit_clean X s D0 Z0 s' : lsx_ok X -> winv X s -> good_arr D0 -> good_arr Z0 -> lsq_fit X s D0 Z0 = (s', Ok tt) ->
  exists D, D0 = M D /\ clean X s' D (atleast_2d Z0) /\ forall w, penalty s' w = penalty s w.
Proof. intros (XL & XS & XV) H HD HZ E. destruct s; cbn [lsq_fit winv] in *; unfold keep, wrap in E.
  - unfold plain_fit, bind in E. destruct (base_fit D0 Z0) as [[D Z]|] eqn:EB; [|discriminate]. injection E as <-.
    destruct (base_dims _ _ _ _ HD HZ EB) as (-> & -> & HI). exists D. split; auto. split; [split; auto|reflexivity].
  - destruct (l2_fit (x_lsvd X) s D0 Z0) as [s1|] eqn:EF; [|discriminate]. injection E as <-. assert (EF2 := EF). unfold l2_fit, bind in EF2.
    destruct (svd_fit (x_lsvd X) D0 Z0) as [p|] eqn:ES; [|discriminate]. injection EF2 as <-.
    destruct (svd_dims _ _ _ _ HD HZ XS ES) as (-> & HZ' & HI). exists (sp_D p). split; auto. rewrite <- HZ'. split; [|reflexivity].
    split; auto. split; [exact (l2r_fit _ s _ Z0 _ H HD HZ EF)|reflexivity].
  - assert (HR := ldr_fit (x_lsvd X) s D0 Z0 H HD HZ). unfold ld_fit in *. destruct (svd_fit (x_lsvd X) D0 Z0) as [p|] eqn:ES; [|discriminate].
    cbn [fst snd] in *. apply pair_equal_spec in E. destruct E as [<- E].
    destruct (svd_dims _ _ _ _ HD HZ XS ES) as (-> & HZ' & HI). exists (sp_D p). split; auto. rewrite <- HZ'. split; [|reflexivity].
    split; auto. split; auto. split; [reflexivity|]. cbn. intros v Hv. rewrite Hv in E. unfold ld_check, guard in E.
    destruct (Nat.eqb_spec (length v) (nrows (sp_Z p))); auto. discriminate.
  - destruct (tk_fit s D0 Z0) as [s1 x] eqn:EF. cbn in E. apply pair_equal_spec in E. destruct E as [<- ->].
    assert (HR := tk_fit_reach _ _ _ _ HD HZ EF). unfold tk_fit in EF. destruct (base_fit D0 Z0) as [[D Z]|] eqn:EB; [|discriminate].
    destruct (base_dims _ _ _ _ HD HZ EB) as (-> & -> & HI). exists D. split; auto.
    destruct (match tk_reg s with Some G => _ | None => _ end) eqn:EC; [|discriminate]. apply pair_equal_spec in EF. destruct EF as [<- _].
    split; [|reflexivity]. split; auto. split; auto. split; [reflexivity|]. cbn. intros G HG. rewrite HG in EC. cbn in EC. unfold guard in EC.
    destruct (shape_is (ncols D) (ncols D) G) eqn:EG; [|discriminate]. apply rect_shape; auto.
  - destruct (td_fit s D0 Z0) as [s1 x] eqn:EF. cbn in E. apply pair_equal_spec in E. destruct E as [<- ->].
    assert (HR := td_fit_reach _ _ _ _ HD HZ EF). unfold td_fit in EF. destruct (base_fit D0 Z0) as [[D Z]|] eqn:EB; [|discriminate].
    destruct (base_dims _ _ _ _ HD HZ EB) as (-> & -> & HI). exists D. split; auto.
    destruct (match td_reg s with Some G => _ | None => _ end) eqn:EC; [|discriminate]. apply pair_equal_spec in EF. destruct EF as [<- _].
    split; [|reflexivity]. split; auto. split; auto. split; [reflexivity|]. cbn. intros Gs HG. rewrite HG in EC. cbn in EC. unfold guard in EC.
    destruct (Nat.eqb_spec (length Gs) (nrows (atleast_2d Z0))); [|discriminate]. cbn in EC.
    destruct (forallb (shape_is (ncols D) (ncols D)) Gs) eqn:EG; [|discriminate]. split; auto. apply Forall_forall. intros G Hin.
    rewrite forallb_forall in EG. apply rect_shape; auto. specialize (H Gs HG). unfold rects in H. rewrite Forall_forall in H. auto.
  - destruct (ts_fit (x_lsvd X) s D0 Z0) as [s1|] eqn:EF; [|discriminate]. injection E as <-. assert (EF2 := EF). unfold ts_fit, bind in EF2.
    destruct (svd_fit (x_lsvd X) D0 Z0) as [p|] eqn:ES; [|discriminate]. injection EF2 as <-.
    destruct (svd_dims _ _ _ _ HD HZ XS ES) as (-> & HZ' & HI). exists (sp_D p). split; auto. rewrite <- HZ'. split; [|reflexivity].
    split; auto. split; [exact (tsr_fit _ s _ Z0 _ H HD HZ EF)|reflexivity].
  - destruct (tls_fit (x_lsvd X) (x_lsolve X) s D0 Z0) as [s1 x] eqn:EF. cbn in E. apply pair_equal_spec in E. destruct E as [<- ->].
    destruct (tls_solves _ _ _ _ _ _ XS XV HD HZ EF) as (D & Z & O & e & H1 & H2 & H3 & _). subst D0 Z. exists D. split; auto.
    split; [|reflexivity]. split.
    + assert (EF2 := EF). unfold tls_fit in EF2. destruct (base_fit (M D) Z0) as [[D' Z']|] eqn:EB; [|discriminate].
      destruct (base_dims _ _ _ _ HD HZ EB) as (E1 & -> & HI). injection E1 as <-. auto.
    + split; auto. exists s, (M D), Z0. auto. Qed.

Lemma valid_reg_arr v : good_arr v -> forall G, td_one v = Ok G -> rect G.
Proof. destruct v as [v|m]; cbn; intros H G E.
  - destruct (negs v); [discriminate|]. injection E as <-. exists (length v), (length v). split; auto. split; auto. apply is_mat_mdiag. reflexivity.
  - injection E as <-. auto. Qed.
Lemma mapM_td_one_rects l : Forall good_arr l -> forall Gs, mapM td_one l = Ok Gs -> rects Gs.
Proof. induction 1 as [|v l Hv H IH]; cbn; intros Gs E; [injection E as <-; constructor|]. destruct (td_one v) as [G|] eqn:EG; [|discriminate]. cbn in E.
  destruct (mapM td_one l) as [Gs'|]; [|discriminate]. cbn in E. injection E as <-. constructor; [eapply valid_reg_arr; eauto|apply IH; auto]. Qed.
Lemma mdiag_rect v : 0 < length v -> rect (mdiag v).
Proof. intros. exists (length v), (length v). split; auto. split; auto. apply is_mat_mdiag. reflexivity. Qed.
Lemma lsq_setreg_winv X s g : winv X s -> valid_reg g -> winv X (fst (lsq_setreg s g)).
Proof. intros H HG. destruct s, g; cbn [lsq_setreg winv] in *; unfold wrap; cbn [fst]; auto.
  - apply l2r_reg; auto.
  - apply ldr_reg; auto.
  - intros G. destruct g as [[v|G']|]; cbn.
    + destruct (negs v); cbn; auto. intros [= <-]. apply mdiag_rect; auto.
    + intros [= <-]. exact HG.
    + discriminate.
  - intros Gs. destruct g as [l|]; cbn; [|discriminate]. destruct (mapM td_one l) as [Gs'|] eqn:E; cbn; auto. intros [= <-].
    eapply mapM_td_one_rects; eauto.
  - apply tsr_set; auto. Qed.
Lemma lsq_setreg_clean X s g s' D Z : winv X s -> valid_reg g -> clean X s D Z -> lsq_setreg s g = (s', Ok tt) -> clean X s' D Z.
Proof. intros HW HG [HI H] E. assert (HW' := lsq_setreg_winv X s g HW HG). rewrite E in HW'. cbn [fst] in HW'. split; auto.
  destruct s, g; cbn [lsq_setreg] in E; try (injection E as <-; exact H); unfold wrap in E; cbn in E;
  apply pair_equal_spec in E; destruct E as [<- E]; cbn [winv] in HW'.
  - destruct H as [H1 H2]. split; auto. destruct g; cbn; auto. destruct (Rlt_dec x 0); auto.
  - destruct H as (H1 & H2 & H3). split; auto. destruct g; cbn in *; try discriminate.
    + split; [auto|discriminate].
    + destruct (negs v); [discriminate|]. cbn in *. split; auto. intros v' [= <-]. unfold ld_check in E.
      destruct (ld_pre s) as [p|]; [|discriminate]. cbn in H2. injection H2 as <- <-. unfold guard in E.
      destruct (Nat.eqb_spec (length v) (nrows (sp_Z p))); [auto|discriminate].
  - destruct H as (H1 & H2 & H3). split; [apply tkr_reg; auto|]. destruct g as [[v|G']|]; cbn in *.
    + destruct (negs v); [discriminate|]. cbn in *. split; auto. rewrite H2 in E. cbn in E. unfold guard in E.
      destruct (shape_is (ncols D) (ncols D) (mdiag v)) eqn:ES; [|discriminate]. intros G [= <-]. apply rect_shape; auto.
    + split; auto. rewrite H2 in E. cbn in E. unfold guard in E.
      destruct (shape_is (ncols D) (ncols D) G') eqn:ES; [|discriminate]. intros G [= <-]. apply rect_shape; auto.
    + split; auto. discriminate.
  - destruct H as (H1 & H2 & H3). split; [apply tdr_reg; auto|]. destruct g as [l|]; cbn in *.
    + destruct (mapM td_one l) as [Gs|] eqn:EM; [|discriminate]. cbn in *. split; auto. rewrite H2 in E. unfold td_check, guard in E.
      destruct (Nat.eqb_spec (length Gs) (nrows Z)); [|discriminate]. cbn in E.
      destruct (forallb (shape_is (ncols D) (ncols D)) Gs) eqn:EG; [|discriminate]. intros Gs' [= <-]. split; auto.
      apply Forall_forall. intros G Hin. rewrite forallb_forall in EG. apply rect_shape; auto.
      assert (HR := mapM_td_one_rects l HG Gs EM). unfold rects in HR. rewrite Forall_forall in HR. auto.
    + split; auto. discriminate.
  - destruct H as [H1 H2]. split; auto. unfold ts_set. destruct n, (ts_max s); cbn; auto. destruct (Z.ltb _ _); cbn; auto. Qed.

Lemma lsq_solve_clean X s D Z O : lsx_ok X -> clean X s D Z -> lsq_solve X s = Ok O ->
  is_mat (nrows Z) (ncols D) O /\
  forall pen, penalty s (ncols D) = Some pen ->
    row_minimizer (nrows Z) (ncols D) (fun O i => (misfit (nrows D) (ncols D) D Z O i + pen O i)%R) O.
Proof. intros (XL & XS & XV) [HI H] E. assert (HP : forall (A : Prop) (f : mat -> nat -> R), row_minimizer (nrows Z) (ncols D) f O ->
    is_mat (nrows Z) (ncols D) O) by (intros A f [H1 _]; exact H1).
  destruct s; cbn [lsq_solve penalty] in *.
  - assert (EP : exists s0, plain_fit s0 (M D) (M Z) = Ok s /\ pl_opts s0 = pl_opts s).
    { exists {| pl_opts := pl_opts s; pl_data := None |}. split; auto. unfold plain_fit, base_fit. cbn [atleast_2d].
      destruct HI as (k & d & r & Hk & Hd & Hr & HD & HZ). rewrite (ncols_is_mat r k Z HZ Hr), (is_mat_nrows _ _ _ HD), Nat.eqb_refl.
      cbn. destruct s; cbn in *; congruence. }
    destruct EP as (s0 & EP & EO). assert (GD : good_arr (M D) /\ good_arr (M Z)).
    { destruct HI as (k & d & r & Hk & Hd & Hr & HD & HZ). split; [exists k, d|exists r, k]; auto. }
    destruct (plain_solves (x_lstsq X) s0 (M D) (M Z) s O (XL _) (proj1 GD) (proj2 GD) EP E) as (D' & Z' & H1 & H2 & H3 & H4).
    injection H2 as <-. cbn in H3. subst Z'. cbn zeta in H4. destruct H4 as (H4 & _). split; [apply H4|].
    intros pen [= <-]. eapply row_min_ext; [|exact H4]. intros; cbn. lra.
  - destruct H as [H1 H2]. assert (E2 := E). unfold l2_solve in E2. destruct (l2_pre s) as [p|] eqn:EP; [|discriminate].
    destruct (l2_reg s) as [lam|] eqn:EG; [|discriminate]. clear E2. rewrite <- EP in H2.
    destruct (l2_solves _ _ _ _ _ _ XS H1 H2 EG E) as (H4 & _). split; [apply H4|]. intros pen [= <-]. exact H4.
  - destruct H as (H1 & H2 & H3). assert (E2 := E). unfold ld_solve in E2. destruct (ld_pre s) as [p|] eqn:EP; [|discriminate].
    destruct (ld_reg s) as [lam|] eqn:EG; [|discriminate]. clear E2. rewrite <- EP in H2.
    destruct (ld_solves _ _ _ _ _ _ XS H1 H2 EG (H3 _ eq_refl) E) as (H4 & _). split; [apply H4|]. intros pen [= <-]. exact H4.
  - destruct H as (H1 & H2 & H3). destruct (tk_reg s) as [G|] eqn:EG; [|unfold tk_solve in E; rewrite H2, EG in E; discriminate].
    destruct (tk_solves _ _ _ _ _ _ _ (XL _) XV H1 H2 EG (H3 _ eq_refl) E) as (H4 & _). split; [apply H4|]. intros pen [= <-]. exact H4.
  - destruct H as (H1 & H2 & H3). destruct (td_reg s) as [G|] eqn:EG; [|unfold td_solve in E; rewrite H2, EG in E; discriminate].
    destruct (H3 _ eq_refl) as [H5 H6].
    destruct (td_solves _ _ _ _ _ _ _ (XL _) XV H1 H2 EG H5 H6 E) as (H4 & _). split; [apply H4|]. intros pen [= <-]. exact H4.
  - destruct H as [H1 H2]. split; [|discriminate]. destruct (ts_pre s) as [p|] eqn:EP; [|discriminate]. cbn in H2. injection H2 as <- <-.
    destruct (ts_reach_ok _ _ XS H1 _ EP) as (k & d & r & Phi & n & HPO & HM & _).
    destruct (ts_solve_entries _ _ _ _ _ _ _ _ _ XS HPO EP HM E) as (HO & _). destruct (pre_dims _ _ _ _ _ _ HPO) as (_ & -> & ->). exact HO.
  - destruct H as (H1 & s0 & D0 & Z0 & G1 & G2 & EF). split; [|discriminate].
    destruct (tls_solves _ _ _ _ _ _ XS XV G1 G2 EF) as (D' & Z' & O' & e & H2 & _ & _ & H3 & _ & _ & H4 & _). rewrite H1 in H2. injection H2 as <- <-.
    rewrite E in H3. injection H3 as <-. exact H4. Qed.
Lemma fresh_winv X s : fresh_solver (x_lsvd X) s -> winv X s.
Proof. destruct s; cbn; try tauto. Qed.
Lemma new_plain_winv X : winv X new_plain. Proof. exact I. Qed.
Lemma new_l2_winv X x : (0 < x)%R -> winv X (LL2 {| l2_reg := Some x; l2_pre := None |}).
Proof. intros Hx. cbn. assert (H := l2r_reg (x_lsvd X) _ (RScalar x) (l2r_new (x_lsvd X))). cbn in H. destruct (Rlt_dec x 0); [lra|exact H]. Qed.

(* ReqPre.v -- C54 for transformers and bases. *)
From Coq Require Import ZArith Lia.
From Verif Require Import PreFinal.
From Verif Require Export ReqSolver.
#[local] Open Scope nat_scope.

Lemma ss_unfit s : unfit (TSS s) -> ss_is_trained s = false.
Proof. cbn. unfold ss_is_trained. intros [[-> ->]|[H1 H2]]; cbn; auto. destruct (ss_scaling s); [|congruence]. cbn.
  destruct H2 as [-> | ->]; cbn; rewrite ?Bool.orb_true_r; auto. Qed.
Lemma unfit_single t : single t -> unfit t -> forall a locs,
  transform t a = Err AttributeError /\ transform_ddts t a = Err AttributeError /\ inverse_transform t locs a = Err AttributeError.
Proof. intros HS HU a locs. destruct t as [r nm|c d nm|s|d nm|l nm|l]; try contradiction.
  - cbn in HU. subst d. cbn. auto.
  - apply ss_unfit in HU. cbn [transform transform_ddts inverse_transform transform_prog ddts_prog inverse_prog].
    unfold ss_transform_prog, ss_ddts_prog, ss_inverse_prog, ss_check_trained. rewrite HU. auto. Qed.
Fixpoint some_unfit (l : list tf) : Prop := match l with [] => False | t :: l' => unfit t \/ some_unfit l' end.
Lemma unfit_pipe l nm : unfit (TPipe l nm) = some_unfit l.
Proof. reflexivity. Qed.
Lemma unfit_multi l : unfit (TMulti l) = (In None (variable_sizes l) \/ some_unfit l).
Proof. reflexivity. Qed.
Lemma some_unfit_iff l : some_unfit l <-> exists t, In t l /\ unfit t.
Proof. induction l as [|t l IH]; cbn; [split; [tauto|intros (? & ? & _); contradiction]|]. rewrite IH. split.
  - intros [H|(t' & H1 & H2)]; eauto.
  - intros (t' & [->|H1] & H2); eauto. Qed.
Definition never {A} (x : res A) : Prop := forall a, x <> Ok a.
Lemma never_bind {A B} (x : res A) (f : A -> res B) : (never x \/ forall a, never (f a)) -> never (bind x f).
Proof. unfold never. destruct x; cbn; [|congruence]. intros [H|H] b; [exfalso; eapply H; eauto|apply H]. Qed.
Lemma chain_never {T A} (f : T -> A -> res A) l : (exists t, In t l /\ forall a, never (f t a)) -> forall a, never (chain f l a).
Proof. induction l as [|t l IH]; intros (t' & HI & H) a; [contradiction|]. rewrite PreProofs.chain_cons. apply never_bind.
  destruct HI as [->|HI]; [left; apply H|right]. intros b. apply IH. eauto. Qed.
Lemma chain_rev_never {T A} (f : T -> A -> res A) l : (exists t, In t l /\ forall a, never (f t a)) -> forall a, never (chain_rev f l a).
Proof. induction l as [|t l IH]; intros (t' & HI & H) a; [contradiction|]. rewrite PreProofs.chain_rev_cons. apply never_bind.
  destruct HI as [->|HI]; [right; intros; apply H|left]. apply IH. eauto. Qed.
Lemma zipM_never {T A B} (f : T -> A -> res B) l : (exists t, In t l /\ forall a, never (f t a)) -> forall qs, length qs = length l -> never (zipM f l qs).
Proof. induction l as [|t l IH]; intros (t' & HI & H) qs HL; [contradiction|]. destruct qs as [|q qs]; [discriminate|]. cbn. apply never_bind.
  destruct HI as [->|HI]; [left; apply H|right]. intros y. apply never_bind. left. apply IH; [eauto|]. cbn in HL. lia. Qed.
Lemma allsome_none {A} (l : list (option A)) : In None l -> allsome l = None.
Proof. induction l as [|[a|] l IH]; cbn; auto; [contradiction|]. intros [H|H]; [discriminate|]. rewrite (IH H). auto. Qed.
Lemma allsome_len {A} (l : list (option A)) ns : allsome l = Some ns -> length ns = length l.
Proof. revert ns. induction l as [|[a|] l IH]; intros ns; cbn; [intros [= <-]; auto| |discriminate]. destruct (allsome l) as [ms|]; cbn; [|discriminate].
  intros [= <-]. cbn. f_equal. auto. Qed.
Lemma split_len ns a : length (split_rows ns a) = length ns.
Proof. unfold split_rows. rewrite map_length, seq_length. auto. Qed.
Lemma np_split_len nq a qs : np_split nq a = Ok qs -> length qs = nq.
Proof. unfold np_split. destruct (_ =? _); [|discriminate]. intros [= <-]. rewrite split_len, repeat_length. auto. Qed.
Lemma unfit_never t : unfit t -> forall a locs, never (transform t a) /\ never (transform_ddts t a) /\ never (inverse_transform t locs a).
Proof. induction t as [r nm|c d nm|s|d nm|l nm IH|l IH] using tf_ind'; intros HU a locs.
  - contradiction.
  - destruct (unfit_single (TScale c d nm) I HU a locs) as (-> & -> & ->). unfold never. repeat split; discriminate.
  - destruct (unfit_single (TSS s) I HU a locs) as (-> & -> & ->). unfold never. repeat split; discriminate.
  - contradiction.
  - rewrite unfit_pipe in HU. apply some_unfit_iff in HU. destruct HU as (t & HI & Ht). rewrite Forall_forall in IH. specialize (IH t HI Ht).
    assert (Hl : l <> []) by (intros ->; contradiction). cbn [transform transform_ddts inverse_transform].
    rewrite !PreProofs.pipe_chain, PreProofs.pipe_rev_chain by auto. repeat split; [apply chain_never|apply chain_never|apply chain_rev_never];
      exists t; (split; [auto|]); intros x; apply (IH x locs).
  - rewrite unfit_multi in HU. cbn [transform transform_ddts inverse_transform]. unfold multi_apply, multi_split, multi_split_locs, multi_check.
    destruct (allsome (variable_sizes l)) as [ns|] eqn:EA; [|unfold never; repeat split; discriminate].
    destruct HU as [HU|HU]; [apply allsome_none in HU; congruence|]. apply some_unfit_iff in HU. destruct HU as (t & HI & Ht).
    rewrite Forall_forall in IH. specialize (IH t HI Ht). assert (HL := allsome_len _ _ EA). unfold variable_sizes in HL. rewrite map_length in HL.
    assert (HM : forall f : tf -> arr -> res arr, (forall x, never (f t x)) -> never (do qs <- (do ns <- (if alen a =? lsumn ns then Ok ns else Err DimensionalityError); Ok (split_rows ns a)); do ys <- zipM f l qs; aconcat ys)).
    { intros f Hf. destruct (alen a =? lsumn ns); cbn [bind]; [|discriminate]. apply never_bind. left. apply zipM_never; [exists t; auto|]. rewrite split_len. auto. }
    repeat split; [apply HM; intros x; apply (IH x locs)|apply HM; intros x; apply (IH x locs)|].
    destruct locs as [ls|].
    + destruct (negb (all_same ns)); cbn [bind]; [discriminate|]. destruct (np_split _ a) as [qs|e] eqn:ES; cbn [bind]; [|discriminate].
      apply never_bind. left. apply zipM_never; [exists t; split; [auto|]; intros x; apply (IH x (Some ls))|]. apply np_split_len in ES.
      unfold variable_sizes in ES. rewrite map_length in ES. auto.
    + unfold multi_split, multi_check. rewrite EA. apply (HM (fun t => inverse_transform t None)). intros x. apply (IH x None). Qed.
Lemma unsized_multi l : In None (variable_sizes l) -> forall a locs,
  transform (TMulti l) a = Err AttributeError /\ transform_ddts (TMulti l) a = Err AttributeError /\ inverse_transform (TMulti l) locs a = Err AttributeError.
Proof. intros H a locs. apply allsome_none in H. cbn [transform transform_ddts inverse_transform]. unfold multi_apply, multi_split, multi_split_locs, multi_check.
  rewrite H. auto. Qed.
(* as the constructors leave them *)
Lemma new_transformers :
  (forall cent sc byrow nm t, mk_ss cent sc byrow nm = Ok t -> (cent = true \/ sc <> None) -> unfit t /\ single t) /\
  (forall x nm t, mk_scale (Sc x) nm = Ok t -> unfit t /\ single t) /\
  (forall l nm t, mk_pipe (PList l) nm = Ok t -> (exists m, In m l /\ unfit m) -> unfit t).
Proof. split; [|split].
  - intros cent sc byrow nm t E H. unfold mk_ss, ss_init in E. destruct (byrow && _); cbn in E; [discriminate|]. injection E as <-. cbn. split; auto.
    destruct cent; [left; auto|]. destruct H as [H|H]; [discriminate|]. right. auto.
  - intros x nm t E. unfold mk_scale in E. destruct (coef_nz (Sc x)); [|discriminate]. injection E as <-. cbn. auto.
  - intros l nm t E H. unfold mk_pipe in E. destruct (consistent_dims _); [|discriminate]. injection E as <-. rewrite unfit_pipe. apply some_unfit_iff. auto. Qed.
(* after a fit that returned *)
Lemma fitted_runs t a t' : built t -> PreModel.fit t a = Ok t' -> ~ unfit t' /\
  forall q, alen q = alen a -> (exists b, transform t' q = Ok b) /\ (exists b, transform_ddts t' q = Ok b) /\ (exists b, inverse_transform t' None q = Ok b).
Proof. intros HB E. unfold PreModel.fit in E. destruct (fit_transform t a) as [[t1 b]|e] eqn:EF; [|discriminate]. cbn in E. injection E as <-.
  destruct (C_fit_transform t a t1 b HB EF) as (HT & _ & HE). split.
  - intros HU. destruct (unfit_never t1 HU a None) as (H & _). apply (H _ HE).
  - intros q Hq. destruct (C01_all t1 _ HT q Hq) as ((b1 & H1 & _) & (b2 & H2 & _)).
    destruct (C04_all t1 _ HT q 0%R q Hq (PreProofs.same_shape_refl q)) as (b3 & e3 & _ & H3 & _). split; [eexists; exact H1|]. split; [eexists; exact H3|eexists; exact H2]. Qed.

(* ---- bases ---------------------------------------------------------------------------------------------------------------- *)
Lemma step_nofit X o p : is_fit o = false -> p_entries p = None -> p_svals p = None ->
  p_entries (fst (pod_step X o p)) = None /\ p_svals (fst (pod_step X o p)) = None.
Proof. intros HF HE HS. destruct o as [st|a|z]; [discriminate| |]; cbn.
  - unfold set_dimension. destruct (pick a); cbn; auto. rewrite HS. cbn. auto.
  - unfold set_r. rewrite HS. cbn. auto. Qed.
Lemma history_nofit X os : forall p, existsb is_fit os = false -> p_entries p = None -> p_svals p = None -> p_entries (pod_history X p os) = None.
Proof. induction os as [|o os IH]; intros p HF HE HS; auto. cbn in HF |- *. apply Bool.orb_false_iff in HF. destruct HF as [H1 H2].
  destruct (step_nofit X o p H1 HE HS). apply IH; auto. Qed.
Lemma init_blank X a mx sv W nm p : pod_init X a mx sv W nm = Ok p -> p_entries p = None /\ p_svals p = None.
Proof. unfold pod_init. destruct (pick a); cbn [bind]; [|discriminate]. match goal with |- (do x <- ?e; _) = _ -> _ => destruct e end; cbn [bind]; [|discriminate].
  match goal with |- (do x <- ?e; _) = _ -> _ => destruct e end; cbn [bind]; [|discriminate]. intros [= <-]. auto. Qed.
Lemma pod_unfitted X a mx sv W nm p os : pod_init X a mx sv W nm = Ok p -> existsb is_fit os = false ->
  forall x q locs rel, Forall refuses (basis_calls (BPod (pod_history X p os)) x q locs rel).
Proof. intros HI HF x q locs rel. destruct (init_blank _ _ _ _ _ _ _ HI) as [HE HS]. assert (H := history_nofit X os p HF HE HS).
  unfold basis_calls, b_error, b_project, projection_error, project, b_compress, b_decompress, pod_compress, pod_decompress, lin_compress, lin_decompress, refuses.
  rewrite H. cbn. repeat constructor. Qed.
(* entries never go away *)
Lemma set_r_entries z p : p_entries p <> None -> p_entries (fst (set_r z p)) <> None.
Proof. intros H. unfold set_r. destruct (p_svals p); cbn; auto. destruct (p_left p); cbn; auto. cbn zeta. destruct (Req_EM_T _ 0); cbn; auto. discriminate. Qed.
Lemma from_entries p : p_entries p <> None -> p_entries (fst (from_criterion p)) <> None.
Proof. intros H. unfold from_criterion. destruct (p_svals p); cbn; auto. destruct (Req_EM_T _ 0); cbn; auto. apply set_r_entries; auto. Qed.
Lemma set_r_ok z p q : p_svals p <> None -> set_r z p = (q, None) -> p_entries q <> None.
Proof. intros HS. unfold set_r. destruct (p_svals p); [|congruence]. destruct (p_left p); [|discriminate]. cbn zeta. destruct (Req_EM_T _ 0); [discriminate|].
  intros E. injection E as <- _. discriminate. Qed.
Lemma from_ok p q : from_criterion p = (q, None) -> p_entries q <> None.
Proof. unfold from_criterion. destruct (p_svals p) eqn:E; [|discriminate]. destruct (Req_EM_T _ 0); [discriminate|]. apply set_r_ok. congruence. Qed.
Lemma fit_entries X st p : p_entries p <> None \/ snd (pod_fit X st p) = None -> p_entries (fst (pod_fit X st p)) <> None.
Proof. unfold pod_fit. destruct (snap_mat st) as [Q|e]; cbn; [|intros [H|H]; [auto|discriminate]].
  destruct (pod_svd X p _ Q) as [[[L s] Rt]|e]; cbn; [|intros [H|H]; [auto|discriminate]].
  unfold store_svd. destruct (normalized s) as [s'|e]; cbn [andthen]; [|cbn; intros [H|H]; [auto|discriminate]].
  match goal with |- context [from_criterion ?p1] => destruct (from_criterion p1) as [q [e|]] eqn:E end; cbn.
  - intros [H|H]; [|discriminate]. change q with (fst (q, Some e)). rewrite <- E. apply from_entries. auto.
  - intros _. eapply from_ok; eauto. Qed.
Lemma step_entries X o p : p_entries p <> None -> p_entries (fst (pod_step X o p)) <> None.
Proof. intros H. destruct o as [st|a|z]; cbn; [apply fit_entries; auto| |apply set_r_entries; auto].
  unfold set_dimension. destruct (pick a); cbn; auto. destruct (p_svals p); cbn; auto. apply from_entries. auto. Qed.
Lemma history_entries X os : forall p, p_entries p <> None -> p_entries (pod_history X p os) <> None.
Proof. induction os as [|o os IH]; intros p H; auto. cbn. apply IH. apply step_entries; auto. Qed.
Lemma history_app X os os' : forall p, pod_history X p (os ++ os') = pod_history X (pod_history X p os) os'.
Proof. induction os as [|o os IH]; intros p; cbn; auto. Qed.
Lemma entries_run b x q locs rel : b_entries b <> None -> Forall does_not_refuse (basis_calls b x q locs rel).
Proof. intros H. destruct b as [l|p].
  - assert (HC : forall y, quiet (b_compress (BLin l) y)). { intros y. cbn. unfold lin_compress, need, wmul_opt, wmul, dot_at, matdot, matvec_r, matmul_r. cbn [bind]. q. }
    assert (HD : forall y ls, quiet (b_decompress (BLin l) y ls)). { intros y ls. cbn. unfold lin_decompress, need, rows_at, norm_index, dot_at. cbn [bind]. q. }
    unfold basis_calls, b_error, b_project, projection_error, project.
    repeat (apply Forall_cons; [apply quiet_out|]); auto.
    + apply quiet_bind; auto.
    + apply quiet_bind; [apply quiet_bind; auto|]. intros. unfold asub. q.
  - cbn in H. assert (HC : forall y, quiet (b_compress (BPod p) y)). { intros y. cbn. unfold pod_compress, lin_compress, need, wmul_opt, wmul, dot_at, matdot, matvec_r, matmul_r. destruct (p_entries p); [|congruence]. cbn [bind]. q. }
    assert (HD : forall y ls, quiet (b_decompress (BPod p) y ls)). { intros y ls. cbn. unfold pod_decompress, lin_decompress, need, rows_at, norm_index, dot_at. destruct (p_entries p); [|congruence]. cbn [bind]. q. }
    unfold basis_calls, b_error, b_project, projection_error, project.
    repeat (apply Forall_cons; [apply quiet_out|]); auto.
    + apply quiet_bind; auto.
    + apply quiet_bind; [apply quiet_bind; auto|]. intros. unfold asub. q. Qed.
Lemma pod_fitted X p os st os' p1 : pod_step X (OFit st) (pod_history X p os) = (p1, None) ->
  forall x q locs rel, Forall does_not_refuse (basis_calls (BPod (pod_history X p (os ++ OFit st :: os'))) x q locs rel).
Proof. intros E x q locs rel. apply entries_run. cbn. rewrite history_app. cbn [pod_history]. apply history_entries. rewrite E. cbn.
  change p1 with (fst (p1, @None err)). rewrite <- E. cbn. apply fit_entries. right. cbn in E. rewrite E. auto. Qed.

(* SavePost.v -- proofs of C46 for interpolatory models and for posteriors. *)
From Coq Require Import String ZArith Lia Lra.
From Verif Require Import MonoEq MonoInv ParaInv.
From Verif Require Export SaveMono.
#[local] Open Scope string_scope.
#[local] Open Scope nat_scope.
#[local] Open Scope list_scope.

(* ---- posteriors ---------------------------------------------------------------------------------------------------------------------- *)
Definition mean_nm (i : nat) : str := String.append "means_" (dec i).
Definition cov_nm (i : nat) : str := String.append "covs_" (dec i).
Fixpoint pnodes (i : nat) (l : list (vec * mat)) : list (str * node) :=
  match l with [] => [] | (v, C) :: t => (mean_nm i, Dset [] (DV v)) :: (cov_nm i, Dset [] (DM C)) :: pnodes (S i) t end.
Lemma mean_cov i j : mean_nm i <> cov_nm j. Proof. discriminate. Qed.
Lemma post_go l : forall i a m, (forall j, i <= j -> assoc (mean_nm j) m = None /\ assoc (cov_nm j) m = None) ->
  wexecs ((fix go (i : nat) (l : list (vec * mat)) : list wev :=
     match l with
     | [] => []
     | (v, C) :: t => EData (String.append "means_" (dec i)) (Some (DV v)) :: EData (String.append "covs_" (dec i)) (Some (DM C)) :: go (S i) t
     end) i l) None (a, m) = ((a, m ++ pnodes i l), Done, None).
Proof.
  induction l as [|[v C] t IH]; intros i a m Hm.
  - cbn. now rewrite app_nil_r.
  - fold (mean_nm i). fold (cov_nm i). cbn [wexecs wexec fst snd]. rewrite (proj1 (Hm i (le_n i))). cbn [tick]. cbn [fst snd].
    rewrite assoc_app, (proj2 (Hm i (le_n i))). cbn [assoc].
    destruct (String.eqb (cov_nm i) (mean_nm i)) eqn:Q; [apply String.eqb_eq in Q; symmetry in Q; elim (mean_cov i i Q)|]. cbn [tick].
    rewrite IH.
    + rewrite <- !app_assoc. reflexivity.
    + intros j Hj. rewrite !assoc_app. destruct (Hm j ltac:(lia)) as [-> ->]. cbn [assoc].
      replace (String.eqb (mean_nm j) (mean_nm i)) with false by (symmetry; apply String.eqb_neq; intros E; apply (name_dec "means_") in E; lia).
      replace (String.eqb (cov_nm j) (cov_nm i)) with false by (symmetry; apply String.eqb_neq; intros E; apply (name_dec "covs_") in E; lia).
      replace (String.eqb (mean_nm j) (cov_nm i)) with false by (symmetry; apply String.eqb_neq; apply mean_cov).
      replace (String.eqb (cov_nm j) (mean_nm i)) with false by (symmetry; apply String.eqb_neq; intros E; symmetry in E; revert E; apply mean_cov). auto.
Qed.
Lemma pnodes_get l : forall i k, assoc (mean_nm (i + k)) (pnodes i l) = option_map (fun x => Dset [] (DV (fst x))) (nth_error l k) /\
  assoc (cov_nm (i + k)) (pnodes i l) = option_map (fun x => Dset [] (DM (snd x))) (nth_error l k).
Proof.
  induction l as [|[v C] t IH]; intros i k; [now destruct k|]. cbn [pnodes assoc].
  replace (String.eqb (mean_nm (i + k)) (cov_nm i)) with false by (symmetry; apply String.eqb_neq; apply mean_cov).
  replace (String.eqb (cov_nm (i + k)) (mean_nm i)) with false by (symmetry; apply String.eqb_neq; intros E; symmetry in E; revert E; apply mean_cov).
  destruct k as [|k].
  - rewrite Nat.add_0_r, !String.eqb_refl. auto.
  - replace (String.eqb (mean_nm (i + S k)) (mean_nm i)) with false by (symmetry; apply String.eqb_neq; intros E; apply (name_dec "means_") in E; lia).
    replace (String.eqb (cov_nm (i + S k)) (cov_nm i)) with false by (symmetry; apply String.eqb_neq; intros E; apply (name_dec "covs_") in E; lia).
    replace (i + S k) with (S i + k) by lia. apply IH.
Qed.
Definition pnode (p : post) : node :=
  Grp [] (("state_dimension", Dset [] (DZ [Z.of_nat (length (po_means p))])) :: pnodes 0 (combine (po_means p) (po_covs p))).
Lemma post_written p : writes (post_events p) (pnode p).
Proof.
  do 2 eexists. split; [reflexivity|]. unfold post_events. cbn [wexecs wexec fst snd assoc tick]. cbn [app]. rewrite post_go; [reflexivity|].
  intros j Hj. split; reflexivity.
Qed.
Lemma split_combine {A B} (l : list A) (l' : list B) : length l = length l' -> map fst (combine l l') = l /\ map snd (combine l l') = l'.
Proof. revert l'. induction l; intros [|b l'] H; try discriminate; cbn; auto. inversion H. destruct (IHl l'); auto. split; congruence. Qed.
Lemma post_read X p : length (po_means p) = length (po_covs p) -> post_load X (pnode p) = post_init X (po_means p) (po_covs p) true.
Proof.
  intros L. unfold post_load. replace (HdfModel.dset "state_dimension" (pnode p)) with (Ok (DZ [Z.of_nat (length (po_means p))])) by reflexivity.
  cbn [bind as_ints head0]. rewrite Nat2Z.id. destruct (split_combine _ _ L) as [C1 C2].
  assert (LC : length (combine (po_means p) (po_covs p)) = length (po_means p)) by (rewrite combine_length; lia).
  rewrite (ldsets_reads _ as_vec (pnode p) _ (map DV (po_means p)) (po_means p)).
  - cbn [bind]. rewrite (ldsets_reads _ as_mat (pnode p) _ (map DM (po_covs p)) (po_covs p)).
    + reflexivity.
    + intros k d Hd. unfold HdfModel.dset, item, pnode. cbn [kids assoc]. fold (cov_nm (0 + k)).
      replace (String.eqb (cov_nm (0 + k)) "state_dimension") with false by reflexivity. rewrite (proj2 (pnodes_get _ 0 k)).
      rewrite nth_error_map in Hd. rewrite <- C2 in Hd. rewrite nth_error_map in Hd. destruct (nth_error (combine _ _) k) as [x|]; [|discriminate]. cbn in Hd. inversion Hd. reflexivity.
    + rewrite map_length. congruence.
    + clear. induction (po_covs p); cbn; constructor; auto.
  - intros k d Hd. unfold HdfModel.dset, item, pnode. cbn [kids assoc]. fold (mean_nm (0 + k)).
    replace (String.eqb (mean_nm (0 + k)) "state_dimension") with false by reflexivity. rewrite (proj1 (pnodes_get _ 0 k)).
    rewrite nth_error_map in Hd. rewrite <- C1 in Hd. rewrite nth_error_map in Hd. destruct (nth_error (combine _ _) k) as [x|]; [|discriminate]. cbn in Hd. inversion Hd. reflexivity.
  - now rewrite map_length.
  - clear. induction (po_means p); cbn; constructor; auto.
Qed.
Lemma raise_ok (b : bool) e {A} (k : res A) x : (if b then Err e else k) = Ok x -> b = false /\ k = Ok x.
Proof. destruct b; [discriminate|auto]. Qed.
Lemma veqb_refl v : veqb v v = true. Proof. unfold veqb. destruct (list_eq_dec _ _ _); congruence. Qed.
Lemma post_eqb_refl p : post_eqb p p = true.
Proof.
  unfold post_eqb. rewrite Nat.eqb_refl. cbn [andb]. apply andb_true_iff. split; apply forallb_forall; intros [x y] H.
  - assert (x = y). { clear -H. revert x y H. induction (po_means p); intros x y []; [inversion H; auto|auto]. } subst. apply veqb_refl.
  - assert (x = y). { clear -H. revert x y H. induction (po_covs p); intros x y []; [inversion H; auto|auto]. } subst x. unfold meqb. cbn [fst snd]. destruct (list_eq_dec (list_eq_dec Req_EM_T) y y); congruence.
Qed.
Lemma post_made X means mats inv p : mvn_ok X -> post_init X means mats inv = Ok p -> po_means p = means /\ po_prec p = negb inv /\ length (po_means p) = length (po_covs p) /\
  post_init X means (po_covs p) true = Ok {| po_means := means; po_covs := po_covs p; po_prec := false |}.
Proof.
  intros HX. unfold post_init. intros H. apply raise_ok in H. destruct H as [L H]. apply negb_false_iff, Nat.eqb_eq in L.
  destruct (mapM _ _) as [covs|] eqn:E; [|discriminate]. cbn [bind] in H. apply raise_ok in H. destruct H as [N H]. inversion H; subst p. cbn [po_means po_covs po_prec].
  apply AffProofs.mapM_Forall2 in E.
  assert (LC : length covs = length means). { apply PreProofs.F2_length in E. rewrite combine_length in E. lia. }
  split; [auto|]. split; [auto|]. split; [auto|]. rewrite LC, Nat.eqb_refl. cbn [negb]. rewrite N.
  replace (mapM _ (combine means covs)) with (Ok covs); [reflexivity|]. symmetry. apply AffProofs.mapM_Forall2.
  clear N H. revert mats covs L E LC. induction means as [|v means IH]; intros [|B mats] [|C covs] L E LC; try discriminate; cbn [combine]; [constructor|].
  cbn [combine] in E. inversion E as [|? ? ? ? E1 E2]; subst. constructor; [|apply (IH mats); auto].
  apply raise_ok in E1. destruct E1 as [Q E1]. apply negb_false_iff in Q. destruct inv.
  - destruct (x_psd X B) as [[]|] eqn:P; [|discriminate]. cbn [bind] in E1. inversion E1; subst. rewrite Q. cbn [negb]. rewrite P. reflexivity.
  - destruct (HX B C (length v) E1 Q) as [P S0]. unfold square_of. rewrite S0. cbn [negb]. rewrite P. reflexivity.
Qed.
Lemma post_back I X means mats inv p : mvn_ok X -> post_init X means mats inv = Ok p ->
  exists p', comes_back I (SvPost p) (post_load X) p' /\ po_means p' = po_means p /\ po_covs p' = po_covs p /\ post_eqb p' p = true.
Proof.
  intros HX H. destruct (post_made _ _ _ _ _ HX H) as [E1 [E2 [E3 E4]]]. exists {| po_means := po_means p; po_covs := po_covs p; po_prec := false |}. split.
  - apply (comes_back_w _ _ (pnode p)); [apply post_written|]. rewrite post_read by auto. rewrite E1 at 1. rewrite E4. now rewrite E1.
  - cbn. repeat split; auto. apply (post_eqb_refl {| po_means := po_means p; po_covs := po_covs p; po_prec := false |}).
Qed.
(* a posterior made from precision matrices comes back as one made from covariance matrices *)
Lemma post_forgets I X means mats p : mvn_ok X -> post_init X means mats false = Ok p ->
  po_prec p = true /\ exists p', loads_as I (SvPost p) (post_load X) p' /\ po_prec p' = false.
Proof.
  intros HX H. destruct (post_made _ _ _ _ _ HX H) as [E1 [E2 [E3 E4]]]. split; [exact E2|]. exists {| po_means := po_means p; po_covs := po_covs p; po_prec := false |}. split; [|auto].
  apply (comes_back_w _ _ (pnode p)); [apply post_written|]. rewrite post_read by auto. rewrite E1 at 1. rewrite E4. now rewrite E1.
Qed.

(* ---- interpolatory models ------------------------------------------------------------------------------------------------------------- *)
Lemma itp_class_name c : itp_class (itp_name c) = Ok c. Proof. destruct c as [| |[| |]| |]; reflexivity. Qed.
Lemma built_read X I arg t : built_itp X I arg t -> itp_load_any X I arg (inode I t) = Ok (PItp t).
Proof.
  intros [ps [Es [ic [C [H1 [H2 [H3 [H4 H5]]]]]]]]. pose proof (itp_back X I (i_cls t) arg ic C ps Es t H1 H2 H3 H4 H5) as [HS HL].
  destruct (saves_writes I _ HS) as [g W]. assert (g = inode I t) by (eapply writes_det; [exact W|apply itp_written]). subst g.
  assert (L : itp_load X I (i_cls t) arg (inode I t) = Ok t).
  { destruct (HS (fun _ => None) "" eq_refl) as [f' E]. pose proof (HL _ _ _ _ _ E) as K. unfold save in E. apply save_done in E. destruct E as [a [l [E ->]]].
    assert (G : Grp a l = inode I t). { eapply writes_det; [do 2 eexists; split; [reflexivity|exact E]|exact W]. }
    unfold load_file in K. rewrite fset_same, G in K. unfold guarded in K. destruct (itp_load X I (i_cls t) arg (inode I t)) as [y|e]; [congruence|]. destruct e; discriminate. }
  unfold itp_load_any. replace (meta_attr "class" (inode I t)) with (Ok (AvS (itp_name (i_cls t)))) by reflexivity. cbn [bind as_str].
  rewrite itp_class_name. cbn [bind]. rewrite L. reflexivity.
Qed.

Lemma one_of_same l a : l <> [] -> (forall x, In x l -> x = a) -> one_of l = Ok (Some a).
Proof. intros N H. rewrite (MonoInv.one_of_all l a H). destruct l as [|x t]; [elim N; auto|]. reflexivity. Qed.
Lemma somes_in l a : In a (somes l) <-> In (Some a) l. Proof. apply ParaInv.in_somes. Qed.
Lemma built_pdim X I arg t : built_itp X I arg t -> exists p, i_pdim t = Some p.
Proof.
  intros [ps [Es [ic [C [H1 _]]]]]. destruct (i_init_inv _ _ _ _ _ _ _ H1) as [t0 [qs [ops [f [C' [H0 [Q0 [A1 [A2 _]]]]]]]]].
  rewrite A2. unfold i_set_params in H0. cbn [i_new i_interp] in H0. destruct ps as [|p0 ps0]; [discriminate|]. destruct (forallb _ _); [|discriminate]. cbn [negb] in H0.
  inversion H0. cbn. eauto.
Qed.
Lemma built_entries X I arg t : built_itp X I arg t -> exists es, i_entries t = Some es.
Proof. intros [ps [Es [ic [C [H1 _]]]]]. destruct (i_init_inv _ _ _ _ _ _ _ H1) as [t0 [qs [ops [f [C' [H0 [Q0 [A1 [A2 [A3 [A4 _]]]]]]]]]]]. eauto. Qed.
Definition iload (d : imodel) (p : nat) : imodel :=
  let b := im_base d in
  {| im_base := {| pm_kind := pm_kind b; pm_ops := pm_ops b; pm_infer := pm_infer b; pm_known := pm_known b; pm_hasin := pm_hasin b; pm_r := pm_r b; pm_m := pm_m b;
                   pm_p := Some p; pm_s := None; pm_intrusive := true; pm_solver := None |}; im_sub := None; im_params := None |}.
Lemma imk_again X I carg d p : pm_ops d <> [] -> dims_of_ops d -> (forall o, In o (pm_ops d) -> exists t, o = PItp t /\ built_itp X I carg t /\ i_pdim t = Some p) ->
  imk_model (pm_kind d) (map POp (pm_ops d)) SNone =
  Ok {| im_base := {| pm_kind := pm_kind d; pm_ops := pm_ops d; pm_infer := []; pm_known := pindices (fun o => negb (puncal o)) (pm_ops d); pm_hasin := pm_hasin d; pm_r := pm_r d; pm_m := pm_m d;
                   pm_p := Some p; pm_s := None; pm_intrusive := true; pm_solver := None |}; im_sub := None; im_params := None |}.
Proof.
  intros NE [[r [Hr [Er Rr]]] [[m [Em [Mm M0]]] [HH _]]] HB. unfold imk_model.
  replace (forallb iparg_ok (map POp (pm_ops d))) with true.
  2:{ symmetry. apply forallb_forall. intros a Ha. apply in_map_iff in Ha. destruct Ha as [o [<- Ho]]. destruct (HB o Ho) as [t [-> _]]. reflexivity. }
  cbn [negb]. unfold pmk_model. destruct (map POp (pm_ops d)) as [|a0 t0] eqn:EA; [destruct (pm_ops d); [congruence|discriminate]|]. rewrite <- EA. clear EA a0 t0.
  replace (mapM presolve (map POp (pm_ops d))) with (Ok (pm_ops d)).
  2:{ symmetry. apply AffProofs.mapM_Forall2. clear. induction (pm_ops d); cbn; constructor; auto. }
  cbn [bind]. assert (U : forall o, In o (pm_ops d) -> puncal o = false).
  { intros o Ho. destruct (HB o Ho) as [t [-> [B _]]]. destruct (built_entries _ _ _ _ B) as [es E]. unfold puncal. cbn. now rewrite E. }
  replace (filter puncal (pm_ops d)) with (@nil pop).
  2:{ symmetry. clear -U. induction (pm_ops d) as [|o l IH]; [auto|]. cbn. rewrite U by (left; auto). apply IH. intros; apply U; right; auto. }
  cbn [map duplicates]. assert (exists o0, In o0 (pm_ops d)) as [o0 H0] by (destruct (pm_ops d); [congruence|eexists; left; eauto]).
  assert (S1 : pstate_dim (pm_ops d) = Ok (pm_r d)).
  { unfold pstate_dim. rewrite Er. apply one_of_same.
    - intros K. assert (In r (somes (map prows (pm_ops d)))) as Z. { apply somes_in. apply in_map_iff. exists o0. auto. } rewrite K in Z. destruct Z.
    - intros x Hx. apply somes_in, in_map_iff in Hx. destruct Hx as [o [E Ho]]. specialize (Rr o Ho). congruence. }
  rewrite S1. cbn [bind].
  assert (S2 : pinput_dim (pm_ops d) = Ok (pm_m d)).
  { unfold pinput_dim. rewrite Em. destruct (filter ptakes (pm_ops d)) as [|o l] eqn:F.
    - rewrite M0; [auto|]. apply not_true_is_false. intros X0. apply existsb_exists in X0. destruct X0 as [o [K1 K2]]. assert (K : In o (filter ptakes (pm_ops d))) by (apply filter_In; auto). rewrite F in K. destruct K.
    - rewrite <- F. assert (K : In o (pm_ops d) /\ ptakes o = true) by (apply filter_In; rewrite F; left; auto). apply one_of_same.
      + intros K0. assert (In m (somes (map pinputs (filter ptakes (pm_ops d))))) as Z. { apply somes_in. apply in_map_iff. exists o. split; [apply Mm; tauto|apply filter_In; auto]. } rewrite K0 in Z. destruct Z.
      + intros x Hx. apply somes_in, in_map_iff in Hx. destruct Hx as [o' [E Ho]]. apply filter_In in Ho. destruct Ho as [Ho1 Ho2]. destruct (Mm o' Ho1 Ho2) as [_ Z]. congruence. }
  rewrite S2. cbn [bind].
  assert (S3 : pindices puncal (pm_ops d) = []).
  { unfold pindices. induction (seq 0 (length (pm_ops d))) as [|i l IH]; [auto|]. cbn. destruct (nth_error (pm_ops d) i) as [o|] eqn:E; [|auto]. rewrite U by (eapply nth_error_In; eauto). auto. }
  rewrite S3. unfold psync. cbn [pm_ops].
  rewrite (one_of_same (somes (map pdim (pm_ops d))) p).
  - cbn [pm_ops pseq pset_solver pm_intrusive pw_p pw_ops length Nat.eqb].
    replace (map (fun o => match pdim o with None => with_pdim p o | Some _ => o end) (pm_ops d)) with (pm_ops d).
    + unfold pset_solver, pw_solver, pw_p, pw_ops. cbn. rewrite HH. reflexivity.
    + rewrite <- (map_id (pm_ops d)) at 1. apply map_ext_in. intros o Ho. destruct (HB o Ho) as [t [-> [_ P]]]. cbn. now rewrite P.
  - intros K. assert (In p (somes (map pdim (pm_ops d)))) as Z. { apply somes_in. apply in_map_iff. exists o0. split; [|auto]. destruct (HB o0 H0) as [t [-> [_ P]]]. exact P. } rewrite K in Z. destruct Z.
  - intros x Hx. apply somes_in, in_map_iff in Hx. destruct Hx as [o [E Ho]]. destruct (HB o Ho) as [t [-> [_ P]]]. cbn in E. congruence.
Qed.

Definition ifront (I : spi) (ic : option iclass) (b : pmodel) : list (str * node) :=
  [("meta", Dset [("num_operators", AvI (Z.of_nat (length (pm_ops b)))); ("r", AvI (dim_of (pm_r b))); ("m", AvI (dim_of (pm_m b))); ("InterpolatorClass", AvS (class_attr I ic))] (DV []));
   ("indices_infer", Dset [] (indices_dset (pm_infer b))); ("indices_known", Dset [] (indices_dset (pm_known b)))].
Lemma imodel_written X I ic carg d : (forall o, In o (pm_ops (im_base d)) -> exists t, o = PItp t /\ built_itp X I carg t) ->
  exists gs, Forall2 (fun o g => itp_load_any X I carg g = Ok o) (pm_ops (im_base d)) gs /\ writes (imodel_events I ic d) (Grp [] (ifront I ic (im_base d) ++ number op_group 0 gs)).
Proof.
  intros HB.
  destruct (egroups_all op_group (fun o => match o with PItp t => itp_events I t | PAff a => aff_events a | PMono o => op_events o end) (pm_ops (im_base d))
              (fun o g => itp_load_any X I carg g = Ok o) [] (ifront I ic (im_base d))) as [gs [HF W]].
  - apply (name_dec "operator_").
  - intros o Ho. destruct (HB o Ho) as [t [-> B]]. exists (inode I t). split; [apply itp_written|now apply built_read].
  - reflexivity.
  - exists gs. split; [auto|]. do 2 eexists. split; [reflexivity|]. unfold imodel_events. rewrite wexecs_app.
    match goal with |- context [wexecs ?l None ?g] => change (wexecs l None g) with ((([], ifront I ic (im_base d)) : gst), Done, @None nat) end. exact W.
Qed.
Lemma imodel_back X I arg ic carg d p : passes I arg ic carg -> dims_of_ops (im_base d) ->
  (forall o, In o (pm_ops (im_base d)) -> exists t, o = PItp t /\ built_itp X I carg t /\ i_pdim t = Some p) ->
  exists d', comes_back I (SvInterp ic d) (imodel_load X I (pm_kind (im_base d)) arg) d' /\ same_imodel (im_base d) (im_base d') /\
    pm_p (im_base d') = Some p /\ pm_solver (im_base d') = None /\ im_sub d' = None.
Proof.
  intros HP HD HB. exists (iload d p). split; [|repeat split].
  destruct (imodel_written X I ic carg d) as [gs [HF W]]. { intros o Ho. destruct (HB o Ho) as [t [E [B _]]]. eauto. }
  apply (comes_back_w I (SvInterp ic d) _ _ _ W). set (b := im_base d) in *. unfold imodel_load. set (g := Grp _ _).
  replace (meta_attr "num_operators" g) with (Ok (AvI (Z.of_nat (length (pm_ops b))))) by reflexivity. cbn [bind as_int].
  unfold indices_at. replace (HdfModel.dset "indices_infer" g) with (Ok (indices_dset (pm_infer b))) by reflexivity. replace (HdfModel.dset "indices_known" g) with (Ok (indices_dset (pm_known b))) by reflexivity.
  unfold indices_dset. cbn [bind as_ints]. rewrite !map_Z, Nat2Z.id.
  replace (meta_attr "InterpolatorClass" g) with (Ok (AvS (class_attr I ic))) by reflexivity. cbn [bind as_str].
  replace (find_class I arg (class_attr I ic)) with (@Ok (option iclass) carg).
  2:{ unfold passes in HP. unfold find_class. destruct arg as [C|]; [now rewrite HP|]. destruct ic as [C|]; destruct HP as [H1 ->]; cbn [class_attr]; now rewrite H1. }
  cbn [bind]. rewrite repeat_map.
  rewrite (lgroups_all op_group g (pm_ops b) (fun _ => itp_load_any X I carg) (fun o => o) gs (ifront I ic b) []); [|apply (name_dec "operator_")|subst g; cbn [kids]; now rewrite app_nil_r|reflexivity|exact HF].
  rewrite map_id. cbn [bind]. rewrite (imk_again X I carg b p); [|apply HD|exact HD|exact HB]. cbn [bind].
  replace (meta_attr "r" g) with (Ok (AvI (dim_of (pm_r b)))) by reflexivity. replace (meta_attr "m" g) with (Ok (AvI (dim_of (pm_m b)))) by reflexivity. cbn [bind as_int].
  destruct HD as [[r [Hr [Er Rr]]] [[m [Em [Mm M0]]] [HH NE]]]. rewrite Er, Em. cbn [dim_of].
  destruct (Z.of_nat r =? 0)%Z eqn:Q; [apply Z.eqb_eq in Q; lia|]. rewrite !Nat2Z.id.
  unfold pw_indices. cbn [im_base pm_kind pm_ops pm_hasin pm_r pm_m pm_p pm_s pm_intrusive pm_solver im_sub im_params].
  unfold pset_r at 1. cbn [pm_ops]. replace (forallb (Nat.eqb r) (somes (map prows (pm_ops b)))) with true.
  2:{ symmetry. apply forallb_forall. intros x Hx. apply somes_in, in_map_iff in Hx. destruct Hx as [o [E Ho]]. rewrite (Rr o Ho) in E. inversion E. apply Nat.eqb_refl. }
  cbn [done bind]. unfold pw_r. cbn [pm_kind pm_ops pm_infer pm_known pm_hasin pm_r pm_m pm_p pm_s pm_intrusive pm_solver].
  destruct ((Z.of_nat m =? 0)%Z || negb (pm_hasin b))%bool eqn:K.
  - cbn [bind]. unfold iload. fold b. now rewrite Er, Em.
  - apply orb_false_elim in K. destruct K as [_ K]. unfold pset_m. cbn [pm_hasin pm_ops]. rewrite K. cbn [andb].
    replace (forallb (Nat.eqb m) (somes (map pinputs (filter ptakes (pm_ops b))))) with true.
    2:{ symmetry. apply forallb_forall. intros x Hx. apply somes_in, in_map_iff in Hx. destruct Hx as [o [E Ho]]. apply filter_In in Ho. destruct Ho as [H1 H2]. destruct (Mm o H1 H2) as [_ Z]. rewrite Z in E. inversion E. apply Nat.eqb_refl. }
    cbn [done bind]. unfold iload, pw_m. fold b. cbn. now rewrite Er, Em.
Qed.
(* the operators of a trained interpolatory model are as their constructor would leave them *)
Lemma reset_built X mus subs ell t t' : reset_op X mus subs ell (PItp t) = (PItp t', Ok tt) ->
  exists Es, i_init (px_cubic X) (px_linnd X) (i_cls t) mus Es (i_iclass t) = Ok t'.
Proof.
  unfold reset_op, i_init. replace (i_set_params (i_clear t) mus) with (i_set_params (i_new (i_cls t) (i_iclass t)) mus) by reflexivity. intros H.
  destruct (i_set_params (i_new (i_cls t) (i_iclass t)) mus) as [t1|]; [|discriminate H]. destruct (mapM (sub_entries ell) subs) as [Es|]; [|discriminate H].
  cbn [bind]. exists Es. destruct (i_set (px_cubic X) (px_linnd X) t1 Es) as [t2 [[]|]]; cbn in H; inversion H; auto.
Qed.

(* ---- C45: an overwriting save that does not return loses the old contents ------------------------------------------------------------------- *)
Lemma killed_any I f path o : is_file f path -> exists w f', save I w f path (Some true) (SvOp o) = (f', Killed) /\
  (forall A (body : node -> res A), load_file f' path body = Err OtherError).
Proof.
  intros HF. exists {| w_open := true; w_kill := Some (0, false) |}. eexists. split.
  - apply killed_loses; [exact HF|cbn; discriminate| | |]; cbn; try discriminate; intros; destruct (mo_ent o); discriminate.
  - intros. unfold load_file. now rewrite fset_same.
Qed.
Lemma raising_any I f path p : is_file f path -> ts_modes p = None ->
  exists f' e, save I calm f path (Some true) (SvSolver (LTsvd p)) = (f', Raised e) /\ load_file f' path (lsq_load KTsvd) = Err LoadfileFormatError.
Proof.
  intros HF HM. destruct p as [n p]. cbn in HM. subst n. do 2 eexists. split; [eapply (raising_loses I calm f path); [reflexivity|reflexivity|exact HF|reflexivity|discriminate]|].
  unfold load_file. rewrite fset_same. reflexivity.
Qed.

(* ParaBest.v -- parametric models: fit() and refit() minimise the residual. *)
From Coq Require Import ZArith Permutation.
From Verif Require Import LinAlg MatAlg OpsProofs BlockAlg SolverReg SolverCond AffProofs InterpProofs.
From Verif Require Export ParaFit.
From Verif Require Export SpecPara.
#[local] Open Scope nat_scope.

(* ---- evaluating all operators ------------------------------------------------------------------------------------------------- *)
Lemma peval_ops_ok mu l : (forall o, In o l -> exists e, snd (pop_eval o mu) = Ok e) -> exists es, snd (peval_ops l mu) = Ok es /\ Forall2 (fun o e => snd (pop_eval o mu) = Ok e) l es.
Proof. induction l as [|o l IH]; intros H; cbn [peval_ops]; [exists []; auto|]. destruct (H o (or_introl eq_refl)) as (e & Ee). destruct (pop_eval o mu) as [o' x] eqn:Eo. cbn in Ee. subst x.
  destruct IH as (es & E & HF); [intros; apply H; right; auto|]. destruct (peval_ops l mu) as [l' y]. cbn in E. subst y. cbn. exists (e :: es). split; auto. constructor; auto. rewrite Eo. reflexivity. Qed.
Lemma peval_ops_inv mu l es : snd (peval_ops l mu) = Ok es -> Forall2 (fun o e => snd (pop_eval o mu) = Ok e) l es.
Proof. revert es. induction l as [|o l IH]; intros es E; cbn [peval_ops] in E; [injection E as <-; auto|]. destruct (pop_eval o mu) as [o' x] eqn:Eo. destruct x as [e|]; [|discriminate].
  destruct (peval_ops l mu) as [l' y]. cbn in E. destruct y as [es'|]; [|discriminate]. injection E as <-. constructor; [rewrite Eo; auto|]. apply IH; auto. Qed.
Lemma pevaluate_sized r m d mu es : 0 < r -> pm_ops d <> [] -> snd (peval_ops (pm_ops d) mu) = Ok es -> Forall (sized r m) es ->
  exists e, snd (pevaluate d mu) = Ok e /\ m_ops e = es /\ m_kind e = pm_kind d /\ m_r e = Some r /\ m_m e = Some (if existsb takes_input es then m else 0) /\ m_hasin e = existsb takes_input es.
Proof. intros Hr Hne E HF. assert (HI := peval_ops_inv mu _ _ E). unfold pevaluate. destruct (peval_ops (pm_ops d) mu) as [l x]. cbn in E. subst x. cbn [snd bind]. rewrite (mk_model_sized _ _ r m); auto.
  - eexists. split; [reflexivity|]. auto.
  - intros ->. inversion HI. congruence. Qed.
Lemma eval_cls_takes mu l es : Forall2 (fun o e => snd (pop_eval o mu) = Ok e) l es -> (forall o e, In o l -> snd (pop_eval o mu) = Ok e -> mo_cls e = pcls o) -> existsb takes_input es = existsb ptakes l.
Proof. intros H. induction H as [|o e l es H1 H2 IH]; intros HC; auto. cbn. rewrite IH by (intros; apply HC; auto; right; auto). f_equal. unfold takes_input, ptakes. rewrite (HC o e); auto. left; auto. Qed.

Lemma posval_eval mu q u i l es ix : Forall2 (fun o e => snd (pop_eval o mu) = Ok e) l es -> (forall a, In a ix -> a < length l) -> lsum (map (posval q u i es) ix) = lsum (map (pposval mu q u i l) ix).
Proof. intros HF Hix. f_equal. apply map_ext_in. intros a Ha. destruct (nth_error_lt l a (Hix a Ha)) as [o Eo]. destruct (Forall2_nth_error _ _ _ a o HF Eo) as (e & Ee & Hv).
  unfold posval, pposval. rewrite Eo, Ee, Hv. reflexivity. Qed.

(* ---- the right-hand side of a candidate ----------------------------------------------------------------------------------------- *)
Section Candidate.
  Context (X : pext) (d : pmodel) (r m p : nat) (mus : list pval) (ks : list nat) (Qs Zs Us : list mat) (inputs : option (list arr)).
  Hypothesis HX : pext_ok X.
  Hypothesis H : pfitted X d r m p mus ks Qs Zs Us inputs.

  Lemma cand_eval l b : pcandidate r m mus d l -> b < length mus -> forall i o, nth_error l i = Some o -> exists e, snd (pop_eval o (nth b mus (PS 0))) = Ok e /\ sized r m e /\ mo_cls e = pcls o.
  Proof. intros (HL & HK & HI) Hb i o Eo. assert (Hi : i < length (pm_ops d)) by (rewrite <- HL; apply nth_error_Some; congruence).
    destruct (pf_dims _ _ _ _ _ _ _ _ _ _ _ H) as (Hr & Hm & _). destruct (pinv_all X d i (pf_inv _ _ _ _ _ _ _ _ _ _ _ H) Hi) as [Hx|Hx].
    - destruct (HI i Hx) as (o0 & o1 & E0 & E1 & HV). rewrite Eo in E1. injection E1 as <-.
      destruct (pf_solver _ _ _ _ _ _ _ _ _ _ _ H) as (s & Bs & L & _ & _ & HBs & _). apply In_nth_error in Hx. destruct Hx as [t Et].
      destruct (Forall2_nth_error _ _ _ t i HBs Et) as (B & _ & o2 & E2 & HB). rewrite E0 in E2. injection E2 as <-. destruct HB as [_ HB]. destruct (HB o HV) as [_ HB2].
      destruct (HB2 b Hb) as (e & A1 & A2 & A3 & _). exists e. split; auto. split; auto. rewrite A3. symmetry. eapply version_cls; eauto.
    - rewrite HK in Eo by auto. destruct (pf_known _ _ _ _ _ _ _ _ _ _ _ H i Hx) as (o1 & E1 & HS & HE & Hok). rewrite Eo in E1. injection E1 as <-.
      destruct (HE b Hb) as [e Ee]. exists e. split; auto. apply (eval_ok r m o (nth b mus (PS 0))); auto. apply Hok. apply nth_In; auto. Qed.

  Lemma cand_hasin l : pcandidate r m mus d l -> existsb ptakes l = pm_hasin d.
  Proof. intros (HL & HK & HI). rewrite (pi_hasin X d (pf_inv _ _ _ _ _ _ _ _ _ _ _ H)). apply existsb_ptakes. apply nth_error_map_ext; auto. intros i o o' E E'.
    assert (Hi : i < length (pm_ops d)) by (apply nth_error_Some; congruence). destruct (pinv_all X d i (pf_inv _ _ _ _ _ _ _ _ _ _ _ H) Hi) as [Hx|Hx].
    - destruct (HI i Hx) as (o0 & o1 & E0 & E1 & HV). rewrite E in E1. rewrite E' in E0. injection E1 as <-. injection E0 as <-. eapply version_cls; eauto.
    - rewrite HK in E by auto. congruence. Qed.

  Definition uin (b j : nat) : option arr := ucol (dinput inputs b) j.
  Lemma uin_ok b j : b < length mus -> pm_hasin d = true -> uin b j = Some (V (colv m (nth b Us []) j)).
  Proof. intros Hb Hh. destruct (pf_in _ _ _ _ _ _ _ _ _ _ _ H Hh) as (_ & us & Eus & EU). destruct (pf_data _ _ _ _ _ _ _ _ _ _ _ H) as (_ & _ & BU). destruct (pf_dims _ _ _ _ _ _ _ _ _ _ _ H) as (_ & _ & _ & _ & _ & HLk & _).
    assert (HL := Forall2_len _ _ _ BU). assert (HLu : b < length us). { rewrite EU, map_length in HL. lia. }
    destruct (nth_error_lt us b HLu) as [u Eu]. unfold uin. rewrite Eus. cbn [dinput]. rewrite Eu. cbn [ucol].
    assert (E1 : nth b Us [] = atleast_2d u). { rewrite EU. rewrite (nth_map_in _ _ _ _ (V [])) by auto. rewrite (nth_of_error _ _ _ (V []) Eu). reflexivity. }
    rewrite <- E1. assert (HM : is_mat m (nth b ks 0) (nth b Us [])) by (apply (Forall2_nth (is_mat m)); auto; lia). rewrite (is_mat_nrows _ _ _ HM). reflexivity. Qed.

  Lemma cand_rhs l b j : pcandidate r m mus d l -> b < length mus -> j < nth b ks 0 ->
    exists w, prhs (pw_ops l d) (nth b mus (PS 0)) (V (colv r (nth b Qs []) j)) (uin b j) = Ok (V w) /\ is_vec r w /\
      forall i, i < r -> vget w i = (lsum (map (pposval (nth b mus (PS 0)) (colv r (nth b Qs []) j) (colv m (nth b Us []) j) i l) (pm_infer d)) +
        lsum (map (pposval (nth b mus (PS 0)) (colv r (nth b Qs []) j) (colv m (nth b Us []) j) i (pm_ops d)) (pm_known d)))%R.
  Proof. intros HC Hb Hj. set (mu := nth b mus (PS 0)) in *. destruct (pf_dims _ _ _ _ _ _ _ _ _ _ _ H) as (Hr & Hm & _ & _ & _ & HLk & _). destruct (pf_data _ _ _ _ _ _ _ _ _ _ _ H) as (BQ & _ & BU).
    assert (HEv := cand_eval l b HC Hb). fold mu in HEv. assert (HL : length l = length (pm_ops d)) by apply HC.
    destruct (peval_ops_ok mu l) as (es & EE & HF). { intros o Ho. apply In_nth_error in Ho. destruct Ho as [i Ei]. destruct (HEv i o Ei) as (e & ? & _). eauto. }
    assert (HSz : Forall (sized r m) es). { apply Forall_forall. intros e He. apply In_nth_error in He. destruct He as [i Ei]. assert (Hi : i < length l). { rewrite (Forall2_len _ _ _ HF). apply nth_error_Some. congruence. }
      destruct (nth_error_lt l i Hi) as [o Eo]. destruct (Forall2_nth_error _ _ _ i o HF Eo) as (e' & Ee' & Hv). rewrite Ei in Ee'. injection Ee' as <-. destruct (HEv i o Eo) as (e2 & A1 & A2 & _). rewrite Hv in A1. injection A1 as <-. auto. }
    assert (Hne : pm_ops (pw_ops l d) <> []). { cbn. intros ->. apply (pi_ne X d (pf_inv _ _ _ _ _ _ _ _ _ _ _ H)). destruct (pm_ops d); auto. discriminate. }
    destruct (pevaluate_sized r m (pw_ops l d) mu es Hr Hne EE HSz) as (M0 & EM & EMo & _). unfold prhs. rewrite EM. cbn [bind].
    assert (HTk : existsb takes_input es = existsb ptakes l). { apply (eval_cls_takes mu l es HF). intros o e Ho Ee. apply In_nth_error in Ho. destruct Ho as [i Ei]. destruct (HEv i o Ei) as (e2 & A1 & _ & A3). congruence. }
    destruct (rhs_value r m M0 (colv r (nth b Qs []) j) (colv m (nth b Us []) j) (uin b j) Hr Hm) as (w & E1 & E2 & E3).
    { rewrite EMo; auto. } { apply is_vec_colv. } { apply is_vec_colv. }
    { rewrite EMo. intros o Ho Ht. apply uin_ok; auto. rewrite <- (cand_hasin l HC), <- HTk. apply existsb_exists. eauto. }
    exists w. split; auto. split; auto. intros i Hi. rewrite E3 by auto. rewrite EMo. assert (HP := pi_perm X d (pf_inv _ _ _ _ _ _ _ _ _ _ _ H)). rewrite <- HL in HP.
    assert (HP' := HP). rewrite (Forall2_len _ _ _ HF) in HP'. rewrite (posval_parts _ _ _ es _ _ HP').
    assert (HIx : forall a, In a (pm_infer d) \/ In a (pm_known d) -> a < length l). { intros a Ha. rewrite HL. eapply pinv_lt; eauto. apply H. }
    rewrite !(posval_eval mu _ _ _ l es) by auto. f_equal. f_equal. apply map_ext_in. intros a Ha. unfold pposval. destruct HC as (_ & HK & _). rewrite HK by auto. reflexivity. Qed.

  (* the learned part is a product of the entries with the data matrix *)
  Lemma cand_widths l : pcandidate r m mus d l -> map (wdp r m (length mus) l) (pm_infer d) = map (wdp r m (length mus) (pm_ops d)) (pm_infer d).
  Proof. intros (_ & _ & HI). apply map_ext_in. intros i Hi. destruct (HI i Hi) as (o0 & o1 & E0 & E1 & HV). unfold wdp. rewrite E0, E1. eapply version_pw; eauto. Qed.
  Lemma cand_blocks l : pcandidate r m mus d l -> blocks r (map (wdp r m (length mus) (pm_ops d)) (pm_infer d)) (map (blk l) (pm_infer d)).
  Proof. intros (_ & _ & HI). destruct (pf_solver _ _ _ _ _ _ _ _ _ _ _ H) as (s & Bs & L & _ & _ & HBs & _). revert HI. generalize dependent (pm_infer d). intros ix HBs HI. induction HBs as [|i B ix Bs (o & Eo & HB) HBs IH]; cbn [map]; constructor.
    - destruct (HI i (or_introl eq_refl)) as (o0 & o1 & E0 & E1 & HV). rewrite Eo in E0. injection E0 as <-. unfold wdp, blk. rewrite Eo, E1. apply HB; auto.
    - apply IH. intros; apply HI; right; auto. Qed.
  Lemma cand_dot l Bs b i j : pcandidate r m mus d l -> Forall2 (fun i B => exists o, nth_error (pm_ops d) i = Some o /\ blockspec r m mus ks Qs Us o B) (pm_infer d) Bs ->
    b < length mus -> i < r -> j < nth b ks 0 ->
    bsum (lsumn (map (wdp r m (length mus) (pm_ops d)) (pm_infer d))) (fun c => (mget (hstack (map mT Bs)) (lsumn (firstn b ks) + j) c * mget (hstack (map (blk l) (pm_infer d))) i c)%R) =
    lsum (map (pposval (nth b mus (PS 0)) (colv r (nth b Qs []) j) (colv m (nth b Us []) j) i l) (pm_infer d)).
  Proof. intros HC HBs Hb Hi Hj. assert (HBl := cand_blocks l HC). destruct (pf_dims _ _ _ _ _ _ _ _ _ _ _ H) as (Hr & Hm & Hks & Hmus & _ & HLk & _).
    set (ws := map (wdp r m (length mus) (pm_ops d)) (pm_infer d)) in *. rewrite bsum_blocks.
    assert (HJ : lsumn (firstn b ks) + j < lsumn ks) by (apply offset_lt; auto; lia).
    assert (HBt : blocks (lsumn ks) ws (map mT Bs)).
    { unfold ws. assert (HIr := pf_infer _ _ _ _ _ _ _ _ _ _ _ H). clear - HBs Hr Hm Hmus HIr. revert HIr. induction HBs as [|a B ix Bs (o & Eo & HB) HBs IH]; intros HIr; cbn [map]; constructor; [|apply IH; intros; apply HIr; right; auto].
      destruct (HIr a (or_introl eq_refl)) as (o1 & E1 & Ho). rewrite Eo in E1. injection E1 as <-. unfold wdp. rewrite Eo. apply is_mat_mT; [apply HB|]. eapply pw_pos; eauto. }
    rewrite lsum_nth, map_length. assert (Lw : length ws = length (pm_infer d)) by (unfold ws; apply map_length). rewrite Lw. apply bsum_ext. intros t Ht.
    destruct (nth_error_lt (pm_infer d) t Ht) as [a Ea]. destruct (Forall2_nth_error _ _ _ t a HBs Ea) as (B & EB & o0 & Eo0 & HB).
    assert (HC' := HC). destruct HC' as (_ & _ & HI). destruct (HI a (nth_error_In _ _ Ea)) as (o0' & o & E0 & Eo & HV). rewrite Eo0 in E0. injection E0 as <-.
    destruct HB as [HBm HB]. destruct (HB o HV) as [HOm HB2]. destruct (HB2 b Hb) as (e & Ee & _ & _ & Hval). clear HB HB2.
    assert (Ew : nth_error ws t = Some (pw r m (length mus) o0)). { unfold ws. rewrite nth_error_map, Ea. cbn. unfold wdp. rewrite Eo0. reflexivity. }
    rewrite (nth_of_error _ _ _ 0 Ew).
    assert (Hvg : vget (map (pposval (nth b mus (PS 0)) (colv r (nth b Qs []) j) (colv m (nth b Us []) j) i l) (pm_infer d)) t = pposval (nth b mus (PS 0)) (colv r (nth b Qs []) j) (colv m (nth b Us []) j) i l a).
    { unfold vget. apply nth_of_error. rewrite nth_error_map, Ea. reflexivity. }
    rewrite Hvg. unfold pposval. rewrite Eo, Ee. rewrite <- Hval by auto. apply bsum_ext. intros c Hc.
    rewrite (hstack_get (lsumn ks) ws (map mT Bs) ltac:(lia) HBt t (mT B) (pw r m (length mus) o0)) by (auto; rewrite nth_error_map, EB; reflexivity).
    rewrite (hstack_get r ws (map (blk l) (pm_infer d)) Hr HBl t (opblock o) (pw r m (length mus) o0)); auto.
    2:{ rewrite nth_error_map, Ea. cbn. unfold blk. rewrite Eo. reflexivity. }
    rewrite (mget_mT (pw r m (length mus) o0) (lsumn ks)) by (auto; lia). ring. Qed.
End Candidate.

Lemma dset_nth l b : b < length l -> dset l b = nth b (map atleast_2d l) [].
Proof. intros Hb. unfold dset. rewrite (nth_map_in _ _ _ _ (V [])) by auto. reflexivity. Qed.
Lemma all_entries_blk d : all_entries d = hstack (map (blk (pm_ops d)) (pm_infer d)). Proof. reflexivity. Qed.

Lemma cand_residual X d r m p mus ks states lhs Us inputs l s Bs L : pext_ok X -> pfitted X d r m p mus ks (map atleast_2d states) (map atleast_2d lhs) Us inputs -> pcandidate r m mus d l ->
  Forall2 (fun i B => exists o, nth_error (pm_ops d) i = Some o /\ blockspec r m mus ks (map atleast_2d states) Us o B) (pm_infer d) Bs ->
  clean (px_l X) s (hstack (map mT Bs)) L ->
  (forall b i j, b < length mus -> i < r -> j < nth b ks 0 -> mget L i (lsumn (firstn b ks) + j) =
      (mget (nth b (map atleast_2d lhs) []) i j - lsum (map (pposval (nth b mus (PS 0)) (colv r (nth b (map atleast_2d states) []) j) (colv m (nth b Us []) j) i (pm_ops d)) (pm_known d)))%R) ->
  let W := lsumn (map (wdp r m (length mus) (pm_ops d)) (pm_infer d)) in let O' := all_entries (pw_ops l d) in
  is_mat r W O' /\ (exists f, rhs_at (pw_ops l d) r mus states inputs f) /\
  forall i x, i < r -> presidual_row (pw_ops l d) r mus states lhs inputs i x -> x = misfit (lsumn ks) W (hstack (map mT Bs)) L O' i.
Proof. intros HX H HC HBs HCl HL W O'. destruct (pf_dims _ _ _ _ _ _ _ _ _ _ _ H) as (Hr & Hm & Hks & Hmus & _ & HLk & _). destruct (pf_data _ _ _ _ _ _ _ _ _ _ _ H) as (BQ & BZ & BU).
  assert (LQ := Forall2_len _ _ _ BQ). assert (LZ := Forall2_len _ _ _ BZ). rewrite map_length in LQ, LZ.
  assert (Hnc : forall b, b < length mus -> ncols (dset states b) = nth b ks 0).
  { intros b Hb. rewrite dset_nth by lia. apply (ncols_is_mat r); auto. apply (Forall2_nth (is_mat r)); auto. lia. }
  assert (HR : forall b j, b < length mus -> j < ncols (dset states b) -> exists w, prhs (pw_ops l d) (nth b mus (PS 0)) (V (colv r (dset states b) j)) (ucol (dinput inputs b) j) = Ok (V w) /\ is_vec r w /\
     forall i, i < r -> vget w i = (bsum W (fun c => mget (hstack (map mT Bs)) (lsumn (firstn b ks) + j) c * mget O' i c) + (mget (dset lhs b) i j - mget L i (lsumn (firstn b ks) + j)))%R).
  { intros b j Hb Hj. rewrite Hnc in Hj by auto. destruct (cand_rhs X d r m p mus ks _ _ Us inputs H l b j HC Hb Hj) as (w & E1 & E2 & E3). exists w. rewrite dset_nth by lia. split; [exact E1|]. split; auto.
    intros i Hi. rewrite E3 by auto. rewrite HL by auto. rewrite dset_nth by lia. unfold O'. rewrite all_entries_blk. cbn [pw_ops pm_ops pm_infer]. unfold W.
    rewrite (cand_dot X d r m p mus ks _ _ Us inputs H l Bs b i j HC HBs Hb Hi Hj). ring. }
  split; [|split].
  - apply is_mat_hstack; [exact (cand_blocks X d r m p mus ks _ _ Us inputs H l HC)|]. assert (Hne := pf_ne _ _ _ _ _ _ _ _ _ _ _ H). cbn [pw_ops pm_infer]. destruct (pm_infer d); cbn; congruence.
  - exists (fun b j => map (fun i => bsum W (fun c => mget (hstack (map mT Bs)) (lsumn (firstn b ks) + j) c * mget O' i c) + (mget (dset lhs b) i j - mget L i (lsumn (firstn b ks) + j)))%R (seq 0 r)).
    intros b j Hb Hj. destruct (HR b j Hb Hj) as (w & E1 & E2 & E3). split; [|rewrite map_length, seq_length; auto]. rewrite E1. f_equal. f_equal. apply (vec_ext r); auto.
    { unfold is_vec. rewrite map_length, seq_length. auto. } intros i Hi. rewrite E3 by auto. unfold vget. rewrite nth_map_seq by auto. reflexivity.
  - intros i x Hi (f & Hf & ->). unfold misfit. rewrite bsum_blocks, HLk. apply bsum_ext. intros b Hb. rewrite Hnc by auto. apply bsum_ext. intros j Hj.
    assert (Hj' : j < ncols (dset states b)) by (rewrite Hnc; auto). destruct (HR b j Hb Hj') as (w & E1 & E2 & E3). destruct (Hf b j Hb Hj') as [E4 _]. rewrite E1 in E4. injection E4 as <-.
    rewrite E3 by auto. f_equal. ring. Qed.

Lemma F2_in {A B} (P Q : A -> B -> Prop) l l' : (forall a b, In a l -> P a b -> Q a b) -> Forall2 P l l' -> Forall2 Q l l'.
Proof. intros H HF. revert H. induction HF as [|a b l l' H1 H2 IH]; intros H; constructor; [apply H; auto; left; auto|apply IH; intros; apply H; auto; right; auto]. Qed.
(* ---- refit ---------------------------------------------------------------------------------------------------------------------- *)
Lemma pw_noinput r m m' s o : ptakes o = false -> pw r m s o = pw r m' s o.
Proof. assert (G : forall c, has_inputs c = false -> opdim (proto c) r m = opdim (proto c) r m') by (intros []; try discriminate; reflexivity).
  unfold ptakes. destruct o as [o|a|t]; cbn [pcls pw]; intros Ht; [auto| |]; [unfold aff_opdim|unfold i_opdim]; rewrite (G _ Ht); auto. Qed.
Lemma pfitted_mm X d r m p mus ks Qs Zs Us inputs : pfitted X d r m p mus ks Qs Zs Us inputs -> exists mm, pm_m d = Some mm /\ (mm = m \/ forall o, In o (pm_ops d) -> ptakes o = false).
Proof. intros H. destruct (pm_hasin d) eqn:Eh.
  - exists m. split; auto. apply (pf_in _ _ _ _ _ _ _ _ _ _ _ H Eh).
  - exists 0. split; [apply (pf_noin _ _ _ _ _ _ _ _ _ _ _ H Eh)|]. right. intros o Ho. destruct (ptakes o) eqn:Et; auto. rewrite (existsb_takes X d o) in Eh; auto. apply H. Qed.

Lemma prefit_inv X d d' x r m p mus ks Qs Zs Us inputs : pext_ok X -> pfitted X d r m p mus ks Qs Zs Us inputs -> prefit X d = (d', x) ->
  pfitted X d' r m p mus ks Qs Zs Us inputs /\ pframe X d d' /\ pm_solver d' = pm_solver d /\
  (x = Ok tt -> pcandidate r m mus d' (pm_ops d') /\ (forall o, In o (pm_ops d') -> psized r m o) /\ exists s O, pm_solver d = Some s /\ lsq_solve (px_l X) s = Ok O /\ all_entries d' = O).
Proof. intros HX H E. unfold prefit in E. assert (HI := pf_inv _ _ _ _ _ _ _ _ _ _ _ H). assert (Hne := pf_ne _ _ _ _ _ _ _ _ _ _ _ H).
  destruct (pm_intrusive d) eqn:Ei. { rewrite (pi_intr X d HI) in Ei. destruct (pm_infer d); [congruence|discriminate]. }
  destruct (pf_solver _ _ _ _ _ _ _ _ _ _ _ H) as (s & Bs & L & Es & HW & HBs & HCl & HL & HLv). rewrite Es in E.
  destruct (lsq_solve (px_l X) s) as [O|e] eqn:EO. 2:{ injection E as <- <-. split; auto. split; [apply pframe_refl|]. split; auto. discriminate. }
  destruct (pf_dims _ _ _ _ _ _ _ _ _ _ _ H) as (Hr & Hm & Hks & Hmus & HN & HLk & HU).
  destruct (pfitted_mm _ _ _ _ _ _ _ _ _ _ _ H) as (mm & Em & Hmm). rewrite (pf_r _ _ _ _ _ _ _ _ _ _ _ H), (pf_s _ _ _ _ _ _ _ _ _ _ _ H), Em in E.
  set (W := lsumn (map (wdp r m (length mus) (pm_ops d)) (pm_infer d))).
  assert (Hcols : 0 < lsumn ks). { apply lsumn_pos; [destruct ks, mus; cbn in *; congruence|]. apply Forall_forall. exact Hks. }
  assert (HD : is_mat (lsumn ks) W (hstack (map mT Bs))).
  { apply is_mat_hstack; [|destruct HBs; [congruence|cbn; congruence]]. assert (HIr := pf_infer _ _ _ _ _ _ _ _ _ _ _ H). clear - HBs Hr Hm Hmus HIr. revert HIr. induction HBs as [|a B ix Bs (o & Eo & HB) HBs IH]; intros HIr; cbn [map]; constructor; [|apply IH; intros; apply HIr; right; auto].
    destruct (HIr a (or_introl eq_refl)) as (o1 & E1 & Ho). rewrite Eo in E1. injection E1 as <-. unfold wdp. rewrite Eo. apply is_mat_mT; [apply HB|]. eapply pw_pos; eauto. }
  destruct (lsq_solve_clean (px_l X) s _ L O (proj1 HX) HCl EO) as (HO & _). rewrite (is_mat_nrows _ _ _ HL), (ncols_is_mat _ _ _ HD Hcols) in HO.
  destruct (pextract X (Some (length mus)) (Some r) (Some mm) O 0 (pm_infer d) (pm_ops d)) as [l y] eqn:EX. injection E as <- <-.
  destruct (pextract_ok X r m mm p mus O W HX Hr HU HN Hmus HO (pm_infer d) 0 (pm_ops d) l y) as (LL & OO & II & BB); auto.
  { eapply NoDup_app_l. eapply pinv_nodup; eauto. }
  { intros i Hi. destruct (pf_infer _ _ _ _ _ _ _ _ _ _ _ H i Hi) as (o & Eo & Ho). exists o. split; auto. split; auto. destruct Hmm as [->|Hno]; auto. apply pw_noinput. apply Hno. eapply nth_error_In; eauto. }
  assert (HKn : forall i, In i (pm_known d) -> nth_error l i = nth_error (pm_ops d) i). { intros i Hi. apply OO. intros K. eapply pinv_disj; eauto. }
  assert (FR : pframe X d (pw_ops l d)).
  { constructor; cbn; auto. intros i o Eo. assert (Hi : i < length (pm_ops d)) by (apply nth_error_Some; congruence). destruct (pinv_all X d i HI Hi) as [Hx|Hx].
    - destruct (II i o Hx Eo) as (o' & Eo' & S' & _). exists o'. split; auto. split; auto. intros K. exfalso. eapply pinv_disj; eauto.
    - exists o. rewrite HKn by auto. split; auto. split; [apply psame_refl|]. intros _. apply pkept_refl. }
  assert (HI' : pinv X (pw_ops l d)). { eapply pframe_inv; eauto. intros s0. cbn. apply (pi_solver X d HI). }
  assert (HF' : pfitted X (pw_ops l d) r m p mus ks Qs Zs Us inputs).
  { destruct H. constructor; cbn [pw_ops pm_ops pm_infer pm_r pm_m pm_s pm_hasin pm_known pm_solver]; auto.
    - intros i Hi. destruct (pf_known i Hi) as (o & Eo & A). exists o. rewrite HKn by auto. auto.
    - intros i Hi. destruct (pf_infer i Hi) as (o & Eo & Ho). destruct (II i o Hi Eo) as (o' & Eo' & _ & _ & R' & _). eauto.
    - exists s, Bs, L. split; auto. split; auto. split.
      { apply F2_in with (P := fun i B => exists o, nth_error (pm_ops d) i = Some o /\ blockspec r m mus ks Qs Us o B); auto. intros i B Hi (o & Eo & HB).
        destruct (II i o Hi Eo) as (o' & Eo' & _ & V' & _). exists o'. split; auto. eapply vequiv_blockspec; eauto. }
      split; auto. split; auto. intros b i j Hb Hir Hj. rewrite HLv by auto. f_equal. f_equal. apply map_ext_in. intros a Ha. unfold pposval. rewrite HKn by auto. reflexivity. }
  split; auto. split; auto. split; auto. intros ->.
  split; [|split].
  - split; auto. split; auto. cbn. intros i Hi. destruct (pf_infer _ _ _ _ _ _ _ _ _ _ _ H i Hi) as (o & Eo & Ho). destruct (II i o Hi Eo) as (o' & Eo' & _ & V' & _ & K'). exists o', o'. split; auto. split; auto.
    apply (vequiv_version r m mus o o' o' V'). apply K'. auto.
  - cbn. intros o Ho. apply In_nth_error in Ho. destruct Ho as [i Eoi]. assert (Hi : i < length (pm_ops d)) by (rewrite <- LL; apply nth_error_Some; congruence). destruct (pinv_all X d i HI Hi) as [Hx|Hx].
    + destruct (nth_error_lt (pm_ops d) i Hi) as [o0 Eo0]. destruct (II i o0 Hx Eo0) as (o' & Eo' & _ & _ & _ & K'). rewrite Eoi in Eo'. injection Eo' as <-. apply K'; auto.
    + rewrite HKn in Eoi by auto. destruct (pf_known _ _ _ _ _ _ _ _ _ _ _ H i Hx) as (o1 & E1 & HS & _). rewrite Eoi in E1. injection E1 as <-. auto.
  - exists s, O. split; auto. split; auto. rewrite all_entries_blk. cbn [pw_ops pm_ops pm_infer]. rewrite (BB eq_refl Hne). cbn [Nat.add]. apply (mcols_all r). auto. Qed.

(* ---- every history --------------------------------------------------------------------------------------------------------------- *)
Lemma i_set_interp_frame X t t' x : i_set_interp (px_cubic X) (px_linnd X) t (i_iclass t) = (t', x) -> i_cls t' = i_cls t /\ icls_from X t t'.
Proof. unfold i_set_interp. intros E. assert (G : icls_from X t t) by (intros C H; auto). destruct (i_entries t) as [ops|]; [|injection E as <- _; auto]. destruct (i_params t) as [ps|]; [|injection E as <- _; auto].
  destruct (match i_iclass t with Some C => (C, ps, map entries2 ops) | None => _ end) as [[C ps'] es'] eqn:EC. destruct (C ps' es') as [f|e]; injection E as <- _; cbn; auto. split; auto.
  intros C0 [= <-]. destruct (i_iclass t) as [C1|]; [injection EC as -> _ _; auto|]. destruct (forallb is_scalar ps); injection EC as <- _ _; auto. Qed.
Lemma pop_set_frame X o E o' x : pop_set X o E = (o', x) -> psame X o o'.
Proof. destruct o as [o|a|t]; cbn [pop_set]; intros K.
  - unfold keep in K. destruct (set_2d (mo_cls o) E); injection K as <- _; reflexivity.
  - unfold keep in K. destruct (aff_set_block a E) as [a'|] eqn:Ea; injection K as <- _; [|apply psame_refl]. unfold aff_set_block, aff_set, bind in Ea. destruct (np_split (a_nterms a) E); [|discriminate]. destruct (aff_terms _ _ _); [|discriminate]. injection Ea as <-. cbn. auto.
  - unfold wrap in K. destruct (i_set_block (px_cubic X) (px_linnd X) t E) as [t' y] eqn:Et. injection K as <- _. cbn. assert (G : i_cls t = i_cls t /\ icls_from X t t) by (split; auto; intros C H; auto).
    unfold i_set_block in Et. destruct (i_params t) as [ps|]; [|injection Et as <- _; auto]. destruct (np_split (length ps) E); [|injection Et as <- _; auto]. unfold i_set in Et.
    destruct (i_params t); [|injection Et as <- _; auto]. destruct (negb (same_shapes _)); [injection Et as <- _; auto|]. destruct (negb _); [injection Et as <- _; auto|]. destruct (mapM _ _) as [ops|]; [|injection Et as <- _; auto].
    match type of Et with i_set_interp _ _ ?t1 _ = _ => destruct (i_set_interp_frame X t1 t' y Et) as [A B] end. cbn in A. split; auto. Qed.
Lemma pextract_frame X s r m O : forall ix idx l l' x, pextract X s r m O idx ix l = (l', x) -> length l' = length l /\ (forall j, ~ In j ix -> nth_error l' j = nth_error l j) /\ forall j o, nth_error l j = Some o -> exists o', nth_error l' j = Some o' /\ psame X o o'.
Proof. induction ix as [|i ix IH]; intros idx l l' x E; cbn [pextract] in E.
  - injection E as <- _. split; auto. split; auto. intros j o Ej. exists o. split; auto. apply psame_refl.
  - assert (G : forall o, nth_error l i = Some o -> forall o', psame X o o' -> length (upd i o' l) = length l /\ (forall j, ~ In j (i :: ix) -> nth_error (upd i o' l) j = nth_error l j) /\ forall j o0, nth_error l j = Some o0 -> exists o1, nth_error (upd i o' l) j = Some o1 /\ psame X o0 o1).
    { intros o Eo o' Hs. split; [apply upd_length|]. split; [intros j Hj; apply upd_other; intros ->; apply Hj; left; auto|]. intros j o0 Ej. destruct (Nat.eq_dec i j) as [<-|N].
      - assert (o0 = o) by congruence. subst. exists o'. split; auto. apply upd_same. apply nth_error_Some. congruence.
      - exists o0. rewrite upd_other by auto. split; auto. apply psame_refl. }
    destruct (nth_error l i) as [o|] eqn:Eo. 2:{ injection E as <- _. split; auto. split; auto. intros j o Ej. exists o. split; auto. apply psame_refl. }
    destruct (pwidth o s r m) as [w|]. 2:{ injection E as <- _. split; auto. split; auto. intros j o0 Ej. exists o0. split; auto. apply psame_refl. }
    destruct (pop_set X o (mcols idx (idx + w) O)) as [o1 x1] eqn:EP. destruct (G o eq_refl o1 (pop_set_frame _ _ _ _ _ EP)) as (G1 & G2 & G3). destruct x1 as [[]|e]; [|injection E as <- _; auto].
    destruct (IH _ _ _ _ E) as (A1 & A2 & A3). split; [rewrite A1; exact G1|]. split.
    + intros j Hj. rewrite A2 by (intros K; apply Hj; right; auto). apply G2; auto.
    + intros j o0 Ej. destruct (G3 j o0 Ej) as (o2 & E2 & S2). destruct (A3 j o2 E2) as (o3 & E3 & S3). exists o3. split; auto. eapply psame_trans; eauto. Qed.
Lemma prefit_frame X d d' x : pinv X d -> prefit X d = (d', x) -> pframe X d d' /\ pm_solver d' = pm_solver d.
Proof. intros H E. unfold prefit in E. destruct (pm_intrusive d); [injection E as <- _; split; auto; apply pframe_refl|]. destruct (pm_solver d) as [s|] eqn:Es; [|injection E as <- _; split; auto; apply pframe_refl].
  destruct (lsq_solve (px_l X) s) as [O|]; [|injection E as <- _; split; auto; apply pframe_refl]. destruct (pextract X _ _ _ O 0 (pm_infer d) (pm_ops d)) as [l y] eqn:EX. injection E as <- _. split; auto.
  destruct (pextract_frame X _ _ _ _ _ _ _ _ _ EX) as (A1 & A2 & A3). constructor; cbn; auto. intros i o Eo. destruct (A3 i o Eo) as (o' & Eo' & S'). exists o'. split; auto. split; auto.
  intros Hk. rewrite A2 in Eo' by (intros K; eapply pinv_disj; eauto). assert (o' = o) by congruence. subst. apply pkept_refl. Qed.
Lemma pop_eval_kept o mu : pkept o (fst (pop_eval o mu)).
Proof. destruct o as [o|a|t]; cbn; try apply pkept_refl. unfold aff_evaluate. destruct (a_entries a) as [ops|] eqn:Ea; cbn; [|apply pkept_refl]. rewrite <- Ea. right. eexists. reflexivity. Qed.
Lemma peval_ops_kept mu : forall l, length (fst (peval_ops l mu)) = length l /\ forall i o, nth_error l i = Some o -> exists o', nth_error (fst (peval_ops l mu)) i = Some o' /\ pkept o o'.
Proof. induction l as [|o l [IH1 IH2]]; [split; auto; intros [|i] o; discriminate|]. cbn [peval_ops]. assert (K := pop_eval_kept o mu). destruct (pop_eval o mu) as [o' x]. cbn in K. destruct x as [e|].
  - destruct (peval_ops l mu) as [l' y]. cbn in *. split; [lia|]. intros [|i] o0 E; cbn in E; [injection E as <-; exists o'; auto|apply IH2; auto].
  - cbn. split; auto. intros [|i] o0 E; cbn in E; [injection E as <-; exists o'; auto|exists o0; split; auto; apply pkept_refl]. Qed.
Lemma pevaluate_frame X d mu : pframe X d (fst (pevaluate d mu)) /\ pm_solver (fst (pevaluate d mu)) = pm_solver d.
Proof. unfold pevaluate. destruct (peval_ops_kept mu (pm_ops d)) as [A B]. destruct (peval_ops (pm_ops d) mu) as [l x]. cbn in *. split; auto. constructor; cbn; auto.
  intros i o Eo. destruct (B i o Eo) as (o' & Eo' & K). exists o'. split; auto. split; auto. apply pkept_same; auto. Qed.

Lemma pset_solver_inv X a d d' x : pinv X d -> valid_solver (x_lsvd (px_l X)) a -> pset_solver a d = (d', x) -> pframe X d d' /\ forall s, pm_solver d' = Some s -> winv (px_l X) s.
Proof. intros H Ha E. assert (HW := pi_solver X d H). unfold pset_solver in E. destruct (pm_intrusive d); [injection E as <- _; split; [apply pframe_ops_eq; reflexivity|cbn; discriminate]|].
  destruct a as [|y|s|]; cbn [valid_solver] in Ha.
  - injection E as <- _. split; [apply pframe_ops_eq; reflexivity|]. cbn. intros s [= <-]. exact I.
  - destruct (Req_EM_T y 0); [injection E as <- _; split; [apply pframe_ops_eq; reflexivity|cbn; intros s [= <-]; exact I]|]. destruct (Rlt_dec 0 y); injection E as <- _; [|split; [apply pframe_refl|auto]].
    split; [apply pframe_ops_eq; reflexivity|]. cbn. intros s [= <-]. apply new_l2_winv. auto.
  - injection E as <- _. split; [apply pframe_ops_eq; reflexivity|]. cbn. intros s0 [= <-]. apply fresh_winv; auto.
  - injection E as <- _. split; [apply pframe_refl|auto]. Qed.

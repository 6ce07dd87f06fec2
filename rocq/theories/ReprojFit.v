(* ReprojFit.v -- regression on re-projected data (C48). *)
From Coq Require Import ZArith String Permutation.
From Verif Require Import TupleFinal GalProofs.
From Verif Require Export ReprojProofs.
#[local] Open Scope nat_scope.

Lemma hstack_inj r : 0 < r -> forall cs l l', blocks r cs l -> blocks r cs l' -> hstack l = hstack l' -> l = l'.
Proof.
  intros Hr cs l l' HB HB' E. assert (HL := Forall2_len _ _ _ HB). assert (HL' := Forall2_len _ _ _ HB').
  apply (nth_ext _ _ [] []); [congruence|]. intros t Ht. assert (Htc : t < length cs) by congruence.
  destruct (nth_error cs t) as [c|] eqn:Ec; [|apply nth_error_None in Ec; lia]. destruct (nth_error l t) as [A|] eqn:EA; [|apply nth_error_None in EA; lia].
  destruct (nth_error l' t) as [A'|] eqn:EA'; [|apply nth_error_None in EA'; lia]. rewrite (nth_error_nth _ _ [] EA), (nth_error_nth _ _ [] EA').
  assert (HS : forall cs l t c A, blocks r cs l -> nth_error cs t = Some c -> nth_error l t = Some A -> is_mat r c A).
  { clear. induction cs as [|c cs IH]; intros l t c0 A HB Ec EA; inversion HB; subst; [destruct t; discriminate|]. destruct t; cbn in *; [congruence|eauto]. }
  apply (mat_ext r c); eauto. intros i j Hi Hj. rewrite <- (hstack_get r cs l Hr HB t A c i j EA Ec Hi Hj), <- (hstack_get r cs l' Hr HB' t A' c i j EA' Ec Hi Hj). now rewrite E.
Qed.
Lemma entries2_inj e e' : cls_of e = cls_of e' -> entries2 e = entries2 e' -> e = e'.
Proof.
  destruct e, e'; cbn; try discriminate; intros Hcl E; try congruence.
  f_equal. revert c0 E. induction c as [|x c IH]; intros [|y c0] E; cbn in E; try discriminate; auto. injection E as -> E. f_equal. auto.
Qed.

Lemma nth_error_ext_in {A} (l l' : list A) : length l = length l' -> (forall i, i < length l -> nth_error l i = nth_error l' i) -> l = l'.
Proof.
  revert l'. induction l as [|a l IH]; intros [|b l'] HL H; cbn in HL; try discriminate; auto. f_equal.
  - specialize (H 0 ltac:(cbn; lia)). cbn in H. congruence.
  - apply IH; [lia|]. intros i Hi. apply (H (S i)). cbn; lia.
Qed.
Section Exact.
  Variables (X : lsx) (e e' g : model) (r k : nat) (S D : mat) (inputs : option arr).
  Hypotheses (HX : lsx_ok X) (HR : reach X e) (HSm : is_mat r k S) (HDm : is_mat r k D) (Hk : 0 < k) (HV : valid_in inputs)
             (HFit : fit X e (M S) (M D) inputs = (e', Ok tt))
             (HGt : trained X g r) (HK : m_known e = []) (HC : map mo_cls (m_ops e) = map mo_cls (m_ops g))
             (HIn : m_hasin g = true -> exists u m, inputs = Some u /\ m_m g = Some m /\ nrows (atleast_2d u) = m)
             (HEx : forall j, j < k -> rhs g (V (colv r S j)) (ucol inputs j) = Ok (V (colv r D j))).

  Lemma ex_r : 0 < r.
  Proof. destruct (tr_inv X g r HGt) as (HM & H1 & H2). destruct (trained_dims X g HM H1) as (r' & _ & Hr & _ & E & _). congruence. Qed.
  Lemma ex_good A : is_mat r k A -> good_arr (M A).
  Proof. intros HA. exists r, k. split; [apply ex_r|]. auto. Qed.
  Lemma ex_intr : m_intrusive e = false.
  Proof.
    assert (HI := mi_s X e (reach_minv X e HX HR)). rewrite (si_intr e HI). assert (HP := si_perm e HI). rewrite HK, app_nil_r in HP. apply Permutation_length in HP. rewrite seq_length in HP.
    rewrite HP. assert (Hx := si_ne e HI). destruct (m_ops e); [congruence|reflexivity].
  Qed.
  Lemma ex_fitted : exists m U, fitted X e' r m k S D U inputs /\ same_roles e e'.
  Proof.
    destruct (fit_ok_fitted X e (M S) (M D) inputs e' HX (reach_minv X e HX HR) ex_intr (ex_good S HSm) (ex_good D HDm) HV HFit) as (d1 & r1 & m & k1 & U & HRl & _ & _ & HFt & ER & _).
    destruct (refit_minimises X d1 e' r1 m k1 _ _ U inputs HX HFt ER) as (H' & _). destruct (fitted_refit_layout _ _ _ _ _ _ _ _ _ _ HX HFt ER) as (_ & _ & _ & _ & _ & _ & _ & _ & _ & A7).
    cbn [atleast_2d] in H'. destruct (ft_dims _ _ _ _ _ _ _ _ _ H') as (Hr1 & _ & _). destruct (ft_data _ _ _ _ _ _ _ _ _ H') as (HS1 & _ & _).
    assert (r1 = r) by (rewrite <- (is_mat_nrows _ _ _ HS1); apply (is_mat_nrows _ _ _ HSm)). subst r1.
    assert (k1 = k) by (rewrite <- (ncols_is_mat _ _ _ HS1 Hr1); apply (ncols_is_mat _ _ _ HSm Hr1)). subst k1. exists m, U. split; auto. eapply roles_trans; eauto.
  Qed.
  Lemma ex_candidate m U : fitted X e' r m k S D U inputs -> same_roles e e' -> candidate r m e' (m_ops g).
  Proof.
    intros HFt HRl. destruct HRl as (_ & Ei & Ek & Eh & Ec & _). destruct (tr_inv X g r HGt) as (HM & H1 & H2).
    destruct (trained_dims X g HM H1) as (r' & m' & _ & Hm' & Er & Em & _ & HSz). rewrite H2 in Er. injection Er as <-.
    assert (Hcls : map mo_cls (m_ops g) = map mo_cls (m_ops e')) by congruence. assert (HL : length (m_ops g) = length (m_ops e')) by (rewrite <- (map_length mo_cls (m_ops g)), Hcls, map_length; auto).
    split; auto. split; [intros i Hi; rewrite Ek, HK in Hi; destruct Hi|]. intros i Hi.
    assert (Hlt : i < length (m_ops e')) by (apply (sinv_in e' i (ft_inv _ _ _ _ _ _ _ _ _ HFt)); auto).
    destruct (nth_error (m_ops e') i) as [o|] eqn:Eo; [|apply nth_error_None in Eo; lia]. destruct (nth_error (m_ops g) i) as [o'|] eqn:Eo'; [|apply nth_error_None in Eo'; lia].
    assert (Hc : mo_cls o' = mo_cls o). { apply (map_nth_error mo_cls) in Eo, Eo'. congruence. }
    rewrite Forall_forall in HSz. assert (Ho' := nth_error_In _ _ Eo'). destruct (HSz o' Ho') as (x & Ex & Hcx & Hw). exists o, x. split; auto. split; [destruct o'; cbn in *; congruence|].
    split; [congruence|]. destruct (m_hasin g) eqn:Ehg.
    - destruct (HIn eq_refl) as (u & mg & Eu & Emg & Enr). assert (Ehe : m_hasin e' = true).
      { rewrite (si_hasin e' (ft_inv _ _ _ _ _ _ _ _ _ HFt)), <- (existsb_cls _ _ Hcls), <- (si_hasin g (mi_s X g HM)). auto. }
      destruct (ft_in _ _ _ _ _ _ _ _ _ HFt Ehe) as (_ & u' & Eu' & EU). rewrite Eu in Eu'. injection Eu' as <-. assert (HUm := proj2 (proj2 (ft_data _ _ _ _ _ _ _ _ _ HFt))).
      rewrite <- EU in HUm. assert (m = m'). { rewrite <- (is_mat_nrows _ _ _ HUm), Enr. rewrite (Em eq_refl) in Emg. congruence. } subst. auto.
    - eapply wf_noinput; eauto. rewrite Hcx. change (takes_input o' = false). destruct (takes_input o') eqn:Et; auto. assert (Hz := sinv_takes g o' (mi_s X g HM) Ho' Et). congruence.
  Qed.
  Lemma ex_residual0 : residual (with_ops (m_ops g) e') r k S D inputs 0.
  Proof.
    exists (fun j => colv r D j). split.
    - intros j Hj. split; [|apply is_vec_colv]. rewrite <- (HEx j Hj). reflexivity.
    - symmetry. apply bsum_0. intros j Hj. apply bsum_0. intros i Hi. rewrite vget_colv by auto. unfold Rsqr. ring.
  Qed.
  (* every admissible regularised fit does at least as well as the operators of g *)
  Lemma ex_best s : m_solver e = Some s -> exists O Og x, operator_matrix e' = Ok O /\ operator_matrix (with_ops (m_ops g) e') = Ok Og /\ residual e' r k S D inputs x /\
    forall pen, penalty s (ncols O) = Some pen -> (x + bsum r (pen O) <= bsum r (pen Og))%R.
  Proof.
    intros Es. destruct (fit_best X e (M S) (M D) inputs e' s HX HR ex_intr (ex_good S HSm) (ex_good D HDm) HV HFit Es) as [HBst HRl].
    destruct ex_fitted as (m & U & HFt & _). destruct HBst as (r1 & mm & k1 & O & Er & Em & Hk1 & HQ & HZ & EO & (x & Hx) & HBc). cbn [atleast_2d] in *.
    assert (r1 = r) by (rewrite (ft_r _ _ _ _ _ _ _ _ _ HFt) in Er; congruence). subst r1. assert (k1 = k) by (rewrite <- (ncols_is_mat _ _ _ HQ ex_r); apply (ncols_is_mat _ _ _ HSm ex_r)). subst k1.
    assert (HCd := ex_candidate m U HFt HRl). apply (candidate_m _ _ _ _ _ _ _ _ _ mm _ HFt Em) in HCd. destruct (HBc _ HCd) as (Og & y & EOg & Hy & HP).
    exists O, Og, x. split; auto. split; auto. split; auto. intros pen Hpen. destruct (HP pen Hpen) as [HPx _]. specialize (HPx x Hx).
    assert (y = 0%R); [|subst; lra]. destruct Hy as (f1 & Hf1 & ->). destruct ex_residual0 as (f2 & Hf2 & E0). rewrite E0. apply bsum_ext. intros j Hj. apply bsum_ext. intros i Hi.
    destruct (Hf1 j Hj) as [K1 _]. destruct (Hf2 j Hj) as [K2 _]. rewrite K1 in K2. injection K2 as ->. reflexivity.
  Qed.
  Lemma ex_zero p : m_solver e = Some (LPlain p) -> residual e' r k S D inputs 0.
  Proof.
    intros Es. destruct (ex_best (LPlain p) Es) as (O & Og & x & _ & _ & Hx & HP). specialize (HP _ eq_refl). rewrite !(bsum_0 r) in HP by auto.
    assert (x = 0%R); [|subst; auto]. destruct Hx as (f & _ & ->). assert (H0 : (0 <= bsum k (fun j => bsum r (fun i => Rsqr (vget (f j) i - mget D i j))))%R).
    { apply bsum_nonneg. intros j _. apply bsum_nonneg. intros i _. apply Rle_0_sqr. } lra.
  Qed.
  (* ... and if the data determine the operators, they are found exactly *)
  Lemma ex_recover p Dm w : m_solver e = Some (LPlain p) -> assemble e' S (option_map (fun u => M (atleast_2d u)) inputs) = Ok Dm -> independent_columns k w Dm ->
    m_ops e' = m_ops g.
  Proof.
    intros Es EA HInd. assert (H0 := ex_zero p Es). destruct ex_fitted as (m & U & HFt & HRl). assert (Hr := ex_r).
    assert (HI := ft_inv _ _ _ _ _ _ _ _ _ HFt). destruct (ft_dims _ _ _ _ _ _ _ _ _ HFt) as (_ & Hm & _). destruct (ft_data _ _ _ _ _ _ _ _ _ HFt) as (_ & _ & HU).
    assert (Hne := ft_ne _ _ _ _ _ _ _ _ _ HFt).
    rewrite (assemble_ok r m k e' S U) in EA; auto.
    2:{ intros a Ha. destruct (nth_error (m_ops e') a) as [o|] eqn:Eo; [|apply nth_error_None in Eo; specialize (sinv_lt e' a HI Ha); lia]. exists o. split; auto. intros Ht.
        destruct (ft_in _ _ _ _ _ _ _ _ _ HFt (sinv_takes e' o HI (nth_error_In _ _ Eo) Ht)) as (_ & u & -> & EU). cbn. congruence. }
    injection EA as EA.
    assert (HCg := ex_candidate m U HFt HRl).
    destruct (ft_solver _ _ _ _ _ _ _ _ _ HFt) as (s & L & Es' & HW & HCl & HLm & HLv).
    (* the operators of e' are themselves a candidate *)
    assert (HCe : candidate r m e' (m_ops e')).
    { destruct (fit_ok_fitted X e (M S) (M D) inputs e' HX (reach_minv X e HX HR) ex_intr (ex_good S HSm) (ex_good D HDm) HV HFit) as (d1 & r1 & m1 & k1 & U1 & _ & _ & _ & HFt1 & ER & _).
      destruct (refit_inv X d1 e' (Ok tt) r1 m1 k1 _ _ U1 inputs HX HFt1 ER) as [_ HRr]. destruct (HRr eq_refl) as (s1 & O1 & l0 & _ & _ & Ed' & HC0 & _).
      assert (HFt' := HFt). rewrite Ed' in HFt'. assert (r1 = r). { assert (Z1 := ft_r _ _ _ _ _ _ _ _ _ HFt1). assert (Z2 := ft_r _ _ _ _ _ _ _ _ _ HFt'). cbn in Z2. congruence. } subst r1.
      destruct (fitted_mm _ _ _ _ _ _ _ _ _ HFt) as [mm Em]. apply (candidate_m _ _ _ _ _ _ _ _ _ mm _ HFt Em). 
      assert (Em1 : m_m d1 = Some mm) by (rewrite Ed' in Em; exact Em). apply (candidate_m _ _ _ _ _ _ _ _ _ mm _ HFt1 Em1) in HC0. rewrite Ed'. cbn [with_ops m_ops]. apply candidate_self. exact HC0. }
    destruct (candidate_residual _ _ _ _ _ _ _ _ _ _ s L HFt HCg Es' HCl HLv) as (HOg & fg & Hfg & HMg).
    destruct (candidate_residual _ _ _ _ _ _ _ _ _ _ s L HFt HCe Es' HCl HLv) as (HOe & fe & Hfe & HMe).
    rewrite EA in *. set (W := lsumn (map (wd r m (m_ops e')) (m_infer e'))) in *.
    assert (HDW : is_mat k W Dm). { rewrite <- EA. apply is_mat_hstack; [|destruct (m_infer e'); [congruence|discriminate]]. apply dblocks; auto. intros a Ha. apply (sinv_lt e' a HI Ha). }
    assert (w = W). { destruct HInd as [Hw _]. rewrite <- (ncols_is_mat _ _ _ Hw Hk). apply (ncols_is_mat _ _ _ HDW Hk). } subst w.
    assert (HZg : forall i t, i < r -> t < k -> (bsum W (fun b => mget Dm t b * mget (opmat (m_ops g) (m_infer e')) i b) = mget L i t)%R).
    { intros i t Hi Ht. assert (K : misfit k W Dm L (opmat (m_ops g) (m_infer e')) i = 0%R).
      { rewrite <- HMg by auto. apply bsum_0. intros j Hj. destruct (Hfg j Hj) as [K1 _]. assert (K2 : rhs (with_ops (m_ops g) e') (V (colv r S j)) (ucol inputs j) = Ok (V (colv r D j))) by (rewrite <- (HEx j Hj); reflexivity).
        rewrite K1 in K2. injection K2 as ->. rewrite vget_colv by auto. unfold Rsqr. ring. }
      unfold misfit in K. apply bsum_nonneg_0 with (i := t) in K; auto; [|intros; apply Rle_0_sqr]. apply Rsqr_0_uniq in K. lra. }
    assert (HZe : forall i t, i < r -> t < k -> (bsum W (fun b => mget Dm t b * mget (opmat (m_ops e') (m_infer e')) i b) = mget L i t)%R).
    { intros i t Hi Ht. assert (K : misfit k W Dm L (opmat (m_ops e') (m_infer e')) i = 0%R).
      { rewrite <- HMe by auto. destruct H0 as (f0 & Hf0 & E0). apply bsum_0. intros j Hj. destruct (Hfe j Hj) as [K1 _]. destruct (Hf0 j Hj) as [K2 _].
        assert (K3 : rhs (with_ops (m_ops e') e') (V (colv r S j)) (ucol inputs j) = Ok (V (f0 j))) by (rewrite <- K2; reflexivity). rewrite K1 in K3. injection K3 as ->.
        symmetry in E0. apply bsum_nonneg_0 with (i := j) in E0; auto; [|intros; apply bsum_nonneg; intros; apply Rle_0_sqr]. apply bsum_nonneg_0 with (i := i) in E0; auto. intros; apply Rle_0_sqr. }
      unfold misfit in K. apply bsum_nonneg_0 with (i := t) in K; auto; [|intros; apply Rle_0_sqr]. apply Rsqr_0_uniq in K. lra. }
    assert (HOO : opmat (m_ops e') (m_infer e') = opmat (m_ops g) (m_infer e')).
    { apply (mat_ext r W); auto. intros i b Hi Hb. destruct HInd as [_ HInd].
      assert (Hsub := HInd (map (fun b => (mget (opmat (m_ops e') (m_infer e')) i b - mget (opmat (m_ops g) (m_infer e')) i b)%R) (seq 0 W))).
      assert (HG : forall c, c < W -> vget (map (fun b => (mget (opmat (m_ops e') (m_infer e')) i b - mget (opmat (m_ops g) (m_infer e')) i b)%R) (seq 0 W)) c =
        (mget (opmat (m_ops e') (m_infer e')) i c - mget (opmat (m_ops g) (m_infer e')) i c)%R).
      { intros c Hc. unfold vget. rewrite (nth_map_in _ (seq 0 W) c 0%R 0) by now rewrite seq_length. now rewrite seq_nth. }
      specialize (Hsub ltac:(unfold is_vec; now rewrite map_length, seq_length)). rewrite <- (Rminus_0_r (mget (opmat (m_ops g) (m_infer e')) i b)). 
      assert (Hz : (mget (opmat (m_ops e') (m_infer e')) i b - mget (opmat (m_ops g) (m_infer e')) i b)%R = 0%R); [|lra]. rewrite <- HG by auto. apply Hsub; auto.
      intros t Ht. rewrite (bsum_ext W _ (fun c => (mget Dm t c * mget (opmat (m_ops e') (m_infer e')) i c - mget Dm t c * mget (opmat (m_ops g) (m_infer e')) i c)%R)) by (intros c Hc; rewrite HG by auto; ring).
      rewrite bsum_minus, HZe, HZg by auto. ring. }
    destruct (candidate_es r m e' _ HCg) as (eg & Heg). destruct (candidate_es r m e' _ HCe) as (ee & Hee).
    rewrite (opmat_es r m _ _ _ Heg), (opmat_es r m _ _ _ Hee) in HOO.
    assert (Hcls : map mo_cls (m_ops g) = map mo_cls (m_ops e')). { destruct HRl as (_ & _ & _ & _ & Ec & _). congruence. }
    assert (HBl : forall l es, map mo_cls l = map mo_cls (m_ops e') -> Forall2 (fun a e0 => exists o, nth_error l a = Some o /\ mo_ent o = Some e0 /\ cls_of e0 = mo_cls o /\ wf_op r m e0) (m_infer e') es ->
      blocks r (map (wd r m (m_ops e')) (m_infer e')) (map entries2 es)).
    { intros l es Hcl HF. rewrite (map_ext _ _ (fun i => wd_cls r m _ _ i (eq_sym Hcl))). clear - HF. induction HF as [|x y lx ly (o & Eo & Ee & Hc & Hw) HF IH]; cbn [map]; constructor; auto.
      unfold wd. rewrite Eo, <- Hc, opdim_proto. apply entries2_shape; auto. }
    assert (HEq := hstack_inj r Hr _ _ _ (HBl _ _ eq_refl Hee) (HBl _ _ Hcls Heg) HOO).
    assert (HPt : forall a, In a (m_infer e') -> nth_error (m_ops e') a = nth_error (m_ops g) a).
    { clear - Heg Hee HEq Hcls. revert ee Hee HEq. induction Heg as [|a y ix eg (o & Eo & Ey & Hc & _) HF IH]; intros ee Hee HEq; [intros a []|].
      inversion Hee as [|? y' ? ee' (o' & Eo' & Ey' & Hc' & _) HF']; subst. cbn [map] in HEq. injection HEq as E1 E2. intros b [<-|Hb]; [|eapply IH; eauto].
      rewrite Eo, Eo'. f_equal. assert (Hco : mo_cls o = mo_cls o') by (apply (map_nth_error mo_cls) in Eo, Eo'; congruence).
      assert (y' = y) by (apply entries2_inj; congruence). subst. destruct o, o'; cbn in *; congruence. }
    apply nth_error_ext_in. { rewrite <- (map_length mo_cls (m_ops g)), Hcls, map_length. auto. }
    intros a Ha. apply HPt. apply (sinv_in e' a HI) in Ha. destruct Ha as [Ha|Ha]; auto. destruct HRl as (_ & _ & Ek & _). rewrite Ek, HK in Ha. destruct Ha.
  Qed.
End Exact.

(* ReprojProofs.v -- re-projection (C48). *)
From Coq Require Import ZArith String Permutation.
From Verif Require Import TupleFinal GalProofs.
From Verif Require Export SpecReproj MonoStmts.
#[local] Open Scope nat_scope.

(* ---- the definitions, in terms of columns ---- *)
Lemma step_inv f B inputs q j q' n r : 0 < n -> 0 < r -> is_mat n r B -> reproject_step f B inputs q j = Ok q' ->
  exists u y, input_at inputs j = Ok u /\ f (matvec B q) u = Ok y /\ is_vec n y /\ q' = matvec (mT B) y.
Proof.
  intros Hn Hr HB E. unfold reproject_step in E. destruct (input_at inputs j) as [u|] eqn:Eu; [|discriminate]. cbn [bind] in E.
  destruct (f (matvec B q) u) as [y|] eqn:Ef; [|discriminate]. cbn [bind] in E. unfold matvec_r in E. assert (HT : is_mat r n (mT B)) by mt. rewrite (ncols_is_mat r n _ HT Hr) in E.
  destruct (Nat.eqb_spec n (length y)) as [Ey|]; [|discriminate]. injection E as <-. exists u, y. split; auto. split; auto. split; auto. now unfold is_vec.
Qed.
Lemma discrete_recurrence f B q0 k inputs Q n r : 0 < n -> 0 < r -> is_mat n r B ->
  reproject_discrete f B (V q0) (Z.of_nat k) inputs = Ok Q ->
  is_vec n q0 /\ 0 < k /\ is_mat r k Q /\ colv r Q 0 = matvec (mT B) q0 /\
  forall j, j + 1 < k -> exists u y, input_at inputs j = Ok u /\ f (matvec B (colv r Q j)) u = Ok y /\ is_vec n y /\ colv r Q (j + 1) = matvec (mT B) y.
Proof.
  intros Hn Hr HB E. unfold reproject_discrete in E. rewrite (is_mat_nrows n r B HB), (ncols_is_mat n r B HB Hn) in E.
  destruct (Nat.eqb_spec (length q0) n) as [Eq|]; [|discriminate]. cbn [negb] in E. destruct (Z.ltb_spec (Z.of_nat k) 0); [discriminate|].
  destruct (Z.eqb_spec (Z.of_nat k) 0); [discriminate|]. rewrite Nat2Z.id in E.
  destruct (iterate (reproject_step f B inputs) (k - 1) 0 (matvec (mT B) q0)) as [l|] eqn:EL; [|discriminate]. cbn [bind] in E. injection E as <-.
  destruct (iterate_inv _ _ _ _ _ EL) as [HL HV]. assert (HT : is_mat r n (mT B)) by mt.
  assert (HF : Forall (is_vec r) (matvec (mT B) q0 :: l)).
  { constructor; [apply (is_vec_matvec r n); auto|]. apply Forall_forall. intros x Hx. apply (In_nth _ _ []) in Hx. destruct Hx as (i & Hi & <-).
    specialize (HV i ltac:(lia)). destruct (step_inv _ _ _ _ _ _ n r Hn Hr HB HV) as (u & y & _ & _ & _ & ->). apply (is_vec_matvec r n); auto. }
  split; auto. split; [lia|]. split. { replace k with (length (matvec (mT B) q0 :: l)) at 1 by (cbn [length]; lia). apply is_mat_of_columns. }
  split. { rewrite colv_of_columns by (auto; cbn [length]; lia). reflexivity. }
  intros j Hj. rewrite !colv_of_columns by (auto; cbn [length]; lia). specialize (HV j ltac:(lia)). cbn [Nat.add] in HV.
  destruct (step_inv _ _ _ _ _ _ n r Hn Hr HB HV) as (u & y & E1 & E2 & E3 & E4). exists u, y. split; auto. split; auto. split; auto. rewrite <- E4.
  replace (j + 1) with (S j) by lia. reflexivity.
Qed.
Lemma discrete_rejects f B init k inputs :
  (match init with V q0 => length q0 <> nrows B | M _ => True end \/ (k < 0)%Z) -> reproject_discrete f B init k inputs = Err ValueError.
Proof.
  unfold reproject_discrete. intros H. destruct init as [q0|Q]; auto. destruct (Nat.eqb_spec (length q0) (nrows B)) as [E|]; auto. cbn [negb].
  destruct (Z.ltb_spec k 0); auto. destruct H as [H|H]; [contradiction|lia].
Qed.
Lemma continuous_columns f B Q inputs n r k S D : 0 < n -> 0 < r -> is_mat n r B -> is_mat n k Q ->
  reproject_continuous f B (M Q) inputs = Ok (S, D) ->
  S = matmul (mT B) Q /\ is_mat r k D /\
  forall j, j < k -> exists u y, input_at inputs j = Ok u /\ f (matvec B (colv r S j)) u = Ok y /\ is_vec n y /\ colv r D j = matvec (mT B) y.
Proof.
  intros Hn Hr HB HQ E. unfold reproject_continuous in E. rewrite (is_mat_nrows n k Q HQ), (is_mat_nrows n r B HB), Nat.eqb_refl, (ncols_is_mat n r B HB Hn), (ncols_is_mat n k Q HQ Hn) in E. cbn [negb] in E.
  destruct (mapM _ (seq 0 k)) as [cols|] eqn:EM; [|discriminate]. cbn [bind] in E. injection E as <- <-. split; auto. apply mapM_inv in EM.
  assert (HL : length cols = k) by (apply Forall2_len in EM; rewrite seq_length in EM; auto).
  assert (HN : forall j, j < k -> reproject_step f B inputs (colv r (matmul (mT B) Q) j) j = Ok (nth j cols [])).
  { intros j Hj. assert (HX : forall a l l', Forall2 (fun j c => reproject_step f B inputs (colv r (matmul (mT B) Q) j) j = Ok c) (seq a l) l' -> forall j, j < l ->
      reproject_step f B inputs (colv r (matmul (mT B) Q) (a + j)) (a + j) = Ok (nth j l' [])).
    { clear. intros a l. revert a. induction l as [|l IH]; intros a l' HF j Hj; [lia|]. inversion HF as [|? c ? cs E1 E2]; subst. destruct j as [|j]; [rewrite Nat.add_0_r; auto|].
      replace (a + S j) with (S a + j) by lia. apply (IH (S a) cs E2 j). lia. }
    apply (HX 0 k cols EM j Hj). }
  assert (HT : is_mat r n (mT B)) by mt.
  assert (HF : Forall (is_vec r) cols).
  { apply Forall_forall. intros x Hx. apply (In_nth _ _ []) in Hx. destruct Hx as (i & Hi & <-). specialize (HN i ltac:(lia)).
    destruct (step_inv _ _ _ _ _ _ n r Hn Hr HB HN) as (u & y & _ & _ & _ & ->). apply (is_vec_matvec r n); auto. }
  split. { rewrite <- HL. apply is_mat_of_columns. }
  intros j Hj. rewrite colv_of_columns by (auto; lia). exact (step_inv _ _ _ _ _ _ n r Hn Hr HB (HN j Hj)).
Qed.
Lemma continuous_rejects f B states inputs :
  (match states with V q => length q | M Q => nrows Q end) <> nrows B -> reproject_continuous f B states inputs = Err ValueError.
Proof. unfold reproject_continuous. destruct states as [q|Q]; intros H; apply Nat.eqb_neq in H; rewrite H; reflexivity. Qed.

(* ---- with the right-hand side of a model ---- *)
Section Galerkin.
  Variables (X : lsx) (solve : mat -> mat -> res mat) (junk : nat -> vec) (d d' : model) (n r : nat) (B : mat) (f : vec -> option uin -> res vec).
  Hypotheses (HT : trained X d n) (HS : solve_spec solve) (HJ : forall k, length (junk k) = k) (HB : orthobasis n r B)
             (HG : galerkin_model solve junk d B None = Ok d') (HF : simulates f d n).

  Lemma gal_sized : exists m, 0 < m /\ Forall (sized r m) (m_ops d') /\ map mo_cls (m_ops d') = map mo_cls (m_ops d) /\ trained X d' r /\ m_hasin d' = m_hasin d /\ m_m d' = m_m d /\
    (m_hasin d = true -> m_m d = Some m).
  Proof.
    destruct HB as (Hn & Hr & HBm & HO). destruct HT as (HX & HRch & HTr & En0). destruct (tr_inv X d n HT) as (HM & H1 & H2).
    destruct (C59_rhs X solve junk d d' n r B None HT HS HJ Hr HBm HBm (or_introl HO) HG) as (_ & Hcls & Er & Em & Ht & _).
    destruct (trained_dims X d HM H1) as (n' & m & Hn' & Hm & En & Emd & Emd0 & HSz). rewrite H2 in En. injection En as <-. assert (HI := mi_s X d HM).
    assert (HG2 := HG). unfold galerkin_model in HG2. destruct (mapM _ (m_ops d)) as [l|] eqn:EL; [|discriminate]. cbn [bind] in HG2. apply mapM_inv in EL.
    assert (HSl : Forall (sized r m) l).
    { clear HG2 Hcls. revert HSz. induction EL as [|o o' lo lo' E EL IH]; intros HSz; constructor.
      - inversion HSz as [|? ? (e & Ee & Hc & Hw)]; subst. rewrite Ee in E. destruct (galerkin solve junk e B None) as [g|] eqn:EG; [|discriminate]. cbn in E. injection E as <-.
        exists g. cbn. split; auto. split; [rewrite <- Hc; eapply galerkin_cls; eauto|]. eapply (galerkin_commutes solve junk n r m e B None); eauto.
      - apply IH. inversion HSz; auto. }
    assert (Hne : l <> []). { assert (Hx := si_ne d HI). intros ->. inversion EL; congruence. }
    assert (HA : Forall valid_arg (map AOp l)).
    { apply Forall_forall. intros a Ha. apply in_map_iff in Ha. destruct Ha as (o & <- & Ho). rewrite Forall_forall in HSl. destruct (HSl o Ho) as (e & Ee & Hc & Hw).
      cbn. intros e' Ee'. rewrite Ee in Ee'. injection Ee' as <-. split; auto. exists r, m. auto. }
    assert (HR' : reach X d') by (apply (reach_new X _ _ _ SNone d' HA I HG2)).
    exists m. split; auto. assert (HG3 := HG2). rewrite (mk_model_sized _ _ r m l SNone Hne Hr HSl) in HG2. injection HG2 as Ed'.
    split; [rewrite <- Ed'; exact HSl|]. split; auto. split; [split; auto|]. split; [|split; auto].
    rewrite (si_hasin d HI), <- (existsb_cls (m_ops d') (m_ops d) Hcls), <- Ed'. reflexivity.
  Qed.
  Lemma inputs_ok k inputs j : driven d k inputs -> j < k -> exists u, input_at inputs j = Ok u /\ input_for d (option_map uvec u) /\
    step_input d' (option_map UArr inputs) j = option_map (fun u => V (uvec u)) u /\ ucol inputs j = option_map (fun u => V (uvec u)) u.
  Proof.
    intros HD Hj. destruct gal_sized as (m0 & Hm0 & _ & _ & _ & Eh & _ & Em0). unfold step_input. rewrite Eh. destruct HD as [(Hh & ->)|(Hh & u & m & k' & -> & Em & HU & Hk)].
    - exists None. rewrite Hh. split; auto. split; auto. unfold input_for. intros K. congruence.
    - rewrite Hh. cbn [option_map ucol]. assert (Hm : 0 < m) by (rewrite Em0 in Em by auto; injection Em as <-; auto).
      destruct u as [u|U]; cbn [atleast_2d] in *.
      + assert (E1 : length u = k') by (destruct HU as [_ HU]; inversion HU; auto). assert (E2 : m = 1) by (destruct HU as [HU _]; cbn in HU; auto). subst m.
        exists (Some (US (vget u j))). cbn [input_at]. destruct (Nat.ltb_spec j (length u)); [|lia]. split; auto. split; [|split; reflexivity].
        intros _. exists 1, [vget u j]. auto.
      + exists (Some (UV (colv (nrows U) U j))). cbn [input_at]. rewrite (ncols_is_mat m k' U HU Hm). destruct (Nat.ltb_spec j k'); [|lia]. split; auto. split; [|split; reflexivity].
        intros _. exists m. eexists. split; auto. split; [reflexivity|]. rewrite (is_mat_nrows _ _ _ HU). apply is_vec_colv.
  Qed.
  (* one step of re-projection is one step of the Galerkin model *)
  Lemma step_galerkin k inputs q j : driven d k inputs -> j < k -> is_vec r q ->
    exists z, reproject_step f B inputs q j = Ok z /\ is_vec r z /\ rhs d' (V q) (ucol inputs j) = Ok (V z) /\
      rhs_vec d' q (step_input d' (option_map UArr inputs) j) = Ok z.
  Proof.
    intros HD Hj Hq. destruct HB as (Hn & Hr & HBm & HO). destruct (inputs_ok k inputs j HD Hj) as (u & E1 & E2 & E3 & E4).
    destruct (C59_rhs X solve junk d d' n r B None HT HS HJ Hr HBm HBm (or_introl HO) HG) as (_ & _ & _ & _ & _ & HC).
    destruct (HC q (option_map uvec u) Hq E2) as (y & z & Ey & Ez & Hz & HE). cbn [testbasis] in HE. rewrite HO, matvec_eye in HE by auto.
    assert (Em : option_map V (option_map uvec u) = option_map (fun u => V (uvec u)) u) by (destruct u; reflexivity). rewrite Em in *.
    assert (HBq : is_vec n (matvec B q)) by (apply (is_vec_matvec n r); auto).
    assert (Hy : is_vec n y). { destruct (C29_sum X d n (matvec B q) (option_map uvec u) HT HBq E2) as (_ & y' & _ & Ey' & Hy' & _). rewrite Em, Ey in Ey'. injection Ey' as <-. auto. }
    exists z. unfold reproject_step. rewrite E1. cbn [bind]. rewrite HF by auto. unfold rhs_vec at 1. rewrite Ey. cbn [bind]. assert (HTm : is_mat r n (mT B)) by mt.
    rewrite (matvec_r_ok r n) by auto. rewrite <- HE. split; auto. split; auto. rewrite E4. split; auto. unfold rhs_vec. rewrite E3, Ez. reflexivity.
  Qed.
  Lemma discrete_is_predict q0 k inputs : is_vec n q0 -> 1 <= k -> driven d (k - 1) inputs ->
    exists Q, reproject_discrete f B (V q0) (Z.of_nat k) inputs = Ok Q /\ is_mat r k Q /\ predict d' (V (matvec (mT B) q0)) (Z.of_nat k) (option_map UArr inputs) = Ok Q.
  Proof.
    intros Hq Hk HD. destruct gal_sized as (m0 & Hm0 & _ & _ & HT' & Eh & Em' & Em0). destruct (tr_inv X d' r HT') as (HM' & H1' & H2').
    assert (HB' := HB). destruct HB' as (Hn & Hr & HBm & HO). assert (HTm : is_mat r n (mT B)) by mt.
    assert (Hx : is_vec r (matvec (mT B) q0)) by (apply (is_vec_matvec r n); auto).
    assert (HE : enough_inputs d' (option_map UArr inputs) k).
    { intros Hh. rewrite Eh in Hh. destruct HD as [(K & _)|(_ & u & m & k' & -> & Em & HU & Hk')]; [congruence|]. exists u, m, k'. rewrite Em'. auto. }
    destruct (C30_rec X d' r _ k _ HT' Hx HE Hk) as (Q & EP & HQ & _). exists Q. split; auto.
    rewrite (predict_unfold X d' r HM' H1' H2' _ k _ Hx HE Hk) in EP. rewrite <- EP. unfold reproject_discrete. rewrite (is_mat_nrows n r B HBm), Hq, Nat.eqb_refl, (ncols_is_mat n r B HBm Hn). cbn [negb].
    destruct (Z.ltb_spec (Z.of_nat k) 0); [lia|]. destruct (Z.eqb_spec (Z.of_nat k) 0); [lia|]. rewrite Nat2Z.id.
    assert (HI : forall a j q, a + j <= k - 1 -> is_vec r q -> iterate (reproject_step f B inputs) a j q = iterate (stepf d' (option_map UArr inputs)) a j q).
    { induction a as [|a IH]; intros j q Ha Hqq; auto. cbn [iterate]. destruct (step_galerkin (k - 1) inputs q j HD ltac:(lia) Hqq) as (z & Ez & Hz & _ & Ez'). rewrite Ez. unfold stepf at 1. rewrite Ez'. cbn [bind].
      rewrite IH by (auto; lia). reflexivity. }
    rewrite HI by (auto; lia). reflexivity.
  Qed.
  Lemma continuous_is_rhs Q k inputs : is_mat n k Q -> driven d k inputs ->
    exists S D, reproject_continuous f B (M Q) inputs = Ok (S, D) /\ S = matmul (mT B) Q /\ is_mat r k S /\ is_mat r k D /\
      forall j, j < k -> rhs d' (V (colv r S j)) (ucol inputs j) = Ok (V (colv r D j)).
  Proof.
    intros HQ HD. assert (HB' := HB). destruct HB' as (Hn & Hr & HBm & HO). assert (HTm : is_mat r n (mT B)) by mt.
    assert (HSm : is_mat r k (matmul (mT B) Q)) by mt.
    assert (HM : exists cols, mapM (fun j => reproject_step f B inputs (colv r (matmul (mT B) Q) j) j) (seq 0 k) = Ok cols).
    { assert (HX : forall l, (forall j, In j l -> j < k) -> exists cols, mapM (fun j => reproject_step f B inputs (colv r (matmul (mT B) Q) j) j) l = Ok cols).
      { induction l as [|j l IH]; intros Hl; [exists []; auto|]. cbn [mapM]. destruct (step_galerkin k inputs (colv r (matmul (mT B) Q) j) j HD ltac:(apply Hl; left; auto) (is_vec_colv _ _ _)) as (z & Ez & _).
        rewrite Ez. cbn [bind]. destruct IH as (cols & E). { intros; apply Hl; right; auto. } rewrite E. cbn. eauto. }
      apply HX. intros j Hj. apply in_seq in Hj. lia. }
    destruct HM as (cols & EM).
    assert (EC : reproject_continuous f B (M Q) inputs = Ok (matmul (mT B) Q, of_columns r cols)).
    { unfold reproject_continuous. rewrite (is_mat_nrows n k Q HQ), (is_mat_nrows n r B HBm), Nat.eqb_refl, (ncols_is_mat n r B HBm Hn), (ncols_is_mat n k Q HQ Hn). cbn [negb]. rewrite EM. reflexivity. }
    exists (matmul (mT B) Q), (of_columns r cols). split; auto. split; auto. split; auto.
    destruct (continuous_columns f B Q inputs n r k _ _ Hn Hr HBm HQ EC) as (_ & HDm & HV). split; auto.
    intros j Hj. destruct (HV j Hj) as (u & y & E1 & E2 & E3 & E4). destruct (step_galerkin k inputs (colv r (matmul (mT B) Q) j) j HD Hj (is_vec_colv _ _ _)) as (z & Ez & Hz & Er & _).
    rewrite Er. do 2 f_equal. rewrite E4. unfold reproject_step in Ez. rewrite E1 in Ez. cbn [bind] in Ez. rewrite E2 in Ez. cbn [bind] in Ez. rewrite (matvec_r_ok r n) in Ez by auto. injection Ez as <-. reflexivity.
  Qed.
End Galerkin.

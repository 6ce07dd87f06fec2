(* ReprojFinal.v -- what is learned from re-projected data (C48). *)
From Coq Require Import ZArith String Permutation.
From Verif Require Export ReprojFit.
#[local] Open Scope nat_scope.

Lemma driven_valid X d n k inputs : trained X d n -> 0 < k -> driven d k inputs -> valid_in inputs.
Proof.
  intros HT Hk [(_ & ->)|(Hh & u & m & k' & -> & Em & HU & Hk')]; [exact I|]. destruct (tr_inv X d n HT) as (HM & H1 & H2). destruct (trained_dims X d HM H1) as (_ & m' & _ & Hm & _ & E & _).
  rewrite E in Em by auto. injection Em as ->. cbn. destruct u as [u|U]; cbn in *.
  - destruct HU as [_ HU]. assert (E1 : length u = k') by (inversion HU; auto). lia.
  - exists m, k'. split; auto. split; auto. lia.
Qed.
Lemma cut_2d j u : atleast_2d (cut j u) = map (firstn j) (atleast_2d u).
Proof. destruct u; reflexivity. Qed.
Lemma nth_firstn_lt j : forall i (l : vec), i < j -> nth i (firstn j l) 0%R = nth i l 0%R.
Proof. induction j as [|j IH]; intros i l Hij; [lia|]. destruct l as [|x l]; auto. destruct i; auto. cbn. apply IH. lia. Qed.
Lemma ucol_cut j u i : i < j -> ucol (Some (cut j u)) i = ucol (Some u) i.
Proof.
  intros Hi. cbn [ucol]. rewrite cut_2d. unfold nrows. rewrite map_length. do 2 f_equal. unfold colv. apply map_ext_in. intros a Ha. apply in_seq in Ha. unfold mget.
  rewrite (nth_map_in (firstn j) (atleast_2d u) a [] []) by lia. apply nth_firstn_lt; auto.
Qed.

Section Learn.
  Variables (X : lsx) (solve : mat -> mat -> res mat) (junk : nat -> vec) (d d' : model) (n r : nat) (B : mat) (f : vec -> option uin -> res vec).
  Hypotheses (HT : trained X d n) (HS : solve_spec solve) (HJ : forall k, length (junk k) = k) (HB : orthobasis n r B)
             (HG : galerkin_model solve junk d B None = Ok d') (HF : simulates f d n).

  Lemma learn_inputs k inputs : driven d k inputs -> m_hasin d' = true -> exists u m, inputs = Some u /\ m_m d' = Some m /\ nrows (atleast_2d u) = m.
  Proof.
    intros HD Hh. destruct (gal_sized X solve junk d d' n r B HT HS HJ HB HG) as (m0 & Hm0 & _ & _ & _ & Eh & Em & _). rewrite Eh in Hh.
    destruct HD as [(K & _)|(_ & u & m & k' & -> & E & HU & _)]; [congruence|]. exists u, m. split; auto. split; [congruence|]. apply (is_mat_nrows _ _ _ HU).
  Qed.
  Lemma learn_continuous Q k inputs S D e e' : is_mat n k Q -> 0 < k -> driven d k inputs -> reproject_continuous f B (M Q) inputs = Ok (S, D) ->
    reach X e -> learns_all_of e d -> fit X e (M S) (M D) inputs = (e', Ok tt) ->
    (forall s, m_solver e = Some s -> exists O Og x, operator_matrix e' = Ok O /\ operator_matrix (with_ops (m_ops d') e') = Ok Og /\ residual e' r k S D inputs x /\
       forall pen, penalty s (ncols O) = Some pen -> (x + bsum r (pen O) <= bsum r (pen Og))%R) /\
    (forall p, m_solver e = Some (LPlain p) -> residual e' r k S D inputs 0 /\
       forall Dm w, assemble e' S (option_map (fun u => M (atleast_2d u)) inputs) = Ok Dm -> independent_columns k w Dm -> m_ops e' = m_ops d').
  Proof.
    intros HQ Hk HD ER HRe (HKe & HCe) HFit. destruct (continuous_is_rhs X solve junk d d' n r B f HT HS HJ HB HG HF Q k inputs HQ HD) as (S1 & D1 & E1 & _ & HSm & HDm & HEx).
    rewrite ER in E1. injection E1 as <- <-. destruct (gal_sized X solve junk d d' n r B HT HS HJ HB HG) as (m0 & Hm0 & _ & Hcls & HT' & _).
    assert (HCe' : map mo_cls (m_ops e) = map mo_cls (m_ops d')) by congruence. assert (HX : lsx_ok X) by apply HT.
    assert (HV := driven_valid X d n k inputs HT Hk HD). assert (HIn := learn_inputs k inputs HD). split.
    - intros s Es. exact (ex_best X e e' d' r k S D inputs HX HRe HSm HDm Hk HV HFit HT' HKe HCe' HIn HEx s Es).
    - intros p Es. split; [exact (ex_zero X e e' d' r k S D inputs HX HRe HSm HDm Hk HV HFit HT' HKe HCe' HIn HEx p Es)|]. intros Dm w.
      exact (ex_recover X e e' d' r k S D inputs HX HRe HSm HDm Hk HV HFit HT' HKe HCe' HIn HEx p Dm w Es).
  Qed.
  Lemma learn_discrete q0 k inputs Q e e' : is_vec n q0 -> 1 < k -> driven d (k - 1) inputs -> reproject_discrete f B (V q0) (Z.of_nat k) inputs = Ok Q ->
    reach X e -> learns_all_of e d -> discrete_fit X e (M Q) None inputs = (e', Ok tt) ->
    let S := map (@removelast R) Q in let D := map (@tl R) Q in let U := option_map (cut (k - 1)) inputs in
    (forall s, m_solver e = Some s -> exists O Og x, operator_matrix e' = Ok O /\ operator_matrix (with_ops (m_ops d') e') = Ok Og /\ residual e' r (k - 1) S D U x /\
       forall pen, penalty s (ncols O) = Some pen -> (x + bsum r (pen O) <= bsum r (pen Og))%R) /\
    (forall p, m_solver e = Some (LPlain p) -> residual e' r (k - 1) S D U 0 /\
       forall Dm w, assemble e' S (option_map (fun u => M (atleast_2d u)) U) = Ok Dm -> independent_columns (k - 1) w Dm -> m_ops e' = m_ops d').
  Proof.
    intros Hq Hk HD ER HRe (HKe & HCe) HFit S D U. destruct (discrete_is_predict X solve junk d d' n r B f HT HS HJ HB HG HF q0 k inputs Hq ltac:(lia) HD) as (Q1 & E1 & HQ & EP).
    rewrite ER in E1. injection E1 as <-. destruct (gal_sized X solve junk d d' n r B HT HS HJ HB HG) as (m0 & Hm0 & _ & Hcls & HT' & Eh & Em & _).
    assert (HCe' : map mo_cls (m_ops e) = map mo_cls (m_ops d')) by congruence. assert (HX : lsx_ok X) by apply HT.
    assert (Hr : 0 < r) by apply HB. assert (HSm : is_mat r (k - 1) S) by (apply is_mat_removelast; auto). assert (HDm : is_mat r (k - 1) D) by (apply is_mat_tl; auto).
    assert (HFit' : fit X e (M S) (M D) U = (e', Ok tt)).
    { unfold discrete_fit in HFit. destruct (m_frozen e); [discriminate|]. unfold U. destruct inputs as [u|]; auto. cbn [option_map]. rewrite <- (ncols_is_mat r (k - 1) S HSm Hr). exact HFit. }
    assert (HV : valid_in U). { assert (HV0 := driven_valid X d n (k - 1) inputs HT ltac:(lia) HD). unfold U. destruct inputs as [u|]; auto. cbn [option_map valid_in]. apply good_cut; auto. lia. }
    assert (HIn : m_hasin d' = true -> exists u m, U = Some u /\ m_m d' = Some m /\ nrows (atleast_2d u) = m).
    { intros Hh. destruct (learn_inputs (k - 1) inputs HD Hh) as (u & m & -> & E2 & E3). exists (cut (k - 1) u), m. split; auto. split; auto. rewrite cut_2d. unfold nrows. rewrite map_length. auto. }
    assert (HE : enough_inputs d' (option_map UArr inputs) k).
    { intros Hh. rewrite Eh in Hh. destruct HD as [(K & _)|(_ & u & m & k' & -> & Em1 & HU & Hk')]; [congruence|]. exists u, m, k'. rewrite Em. auto. }
    assert (HTm : is_mat r n (mT B)) by (destruct HB as (? & ? & ? & _); mt).
    destruct (C30_rec X d' r (matvec (mT B) q0) k _ HT' ltac:(apply (is_vec_matvec r n); auto) HE ltac:(lia)) as (Q2 & EP2 & _ & _ & HRec). rewrite EP in EP2. injection EP2 as <-.
    assert (HEx : forall j, j < k - 1 -> rhs d' (V (colv r S j)) (ucol U j) = Ok (V (colv r D j))).
    { intros j Hj. assert (EU : ucol U j = step_input d' (option_map UArr inputs) j).
      { destruct (inputs_ok X solve junk d d' n r B HT HS HJ HB HG (k - 1) inputs j HD Hj) as (u & _ & _ & K3 & K4). unfold U. rewrite K3, <- K4. destruct inputs as [a|]; auto. cbn [option_map]. apply ucol_cut; auto. }
      rewrite EU. assert (ES : colv r S j = colv r Q j). { apply (vec_ext r); try apply is_vec_colv. intros i Hi. rewrite !vget_colv by auto. apply (mget_removelast r k); auto. }
      assert (ED : colv r D j = colv r Q (j + 1)). { apply (vec_ext r); try apply is_vec_colv. intros i Hi. rewrite !vget_colv by auto. unfold D. apply (mget_tl r k); auto. }
      rewrite ES, ED. apply HRec. lia. }
    assert (Hk1 : 0 < k - 1) by lia. split.
    - intros s Es. exact (ex_best X e e' d' r (k - 1) S D U HX HRe HSm HDm Hk1 HV HFit' HT' HKe HCe' HIn HEx s Es).
    - intros p Es. split; [exact (ex_zero X e e' d' r (k - 1) S D U HX HRe HSm HDm Hk1 HV HFit' HT' HKe HCe' HIn HEx p Es)|]. intros Dm w.
      exact (ex_recover X e e' d' r (k - 1) S D U HX HRe HSm HDm Hk1 HV HFit' HT' HKe HCe' HIn HEx p Dm w Es).
  Qed.
End Learn.

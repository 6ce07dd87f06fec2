(* VerifyBasis.v -- what verify() of bases accepts. *)
From Coq Require Import ZArith Lra Psatz.
From Verif Require Import MatAlg LinAlg PreProofs PreLocs PreFinal BasisProofs BasisMultiProofs GalProofs VerifyProofs VerifyTf.
From Verif Require Import SpecVerify.
#[local] Open Scope nat_scope.

Lemma shaped_M n k A b : is_mat n k A -> same_kind (M A) b -> shaped n k b -> exists B, b = M B /\ is_mat n k B.
Proof. destruct b; cbn; [contradiction|eauto]. Qed.
(* the generic part *)
Lemma v_basis_val n r k X comp decomp locs Q q1 P p1 : 0 < n -> 0 < r -> is_mat n k (X n) ->
  comp (M (X n)) = Ok (M Q) -> is_mat r k Q -> comp (V (map (fun row => nth 0 row 0%R) (X n))) = Ok (V q1) ->
  decomp (M Q) None = Ok (M P) -> is_mat n k P -> decomp (V q1) None = Ok (V p1) -> locs (M Q) (M P) = Ok tt ->
  v_basis (Some n) comp decomp locs X = do q2 <- comp (M P); do p2 <- decomp q2 None; rassert (aclose p2 (M P)).
Proof.
  intros Hn Hr HX E1 HQ E2 E3 HP E4 E5. unfold v_basis. rewrite E1. cbn [bind acols]. rewrite (ncols_is_mat r k Q HQ Hr), (ncols_is_mat n k (X n) HX Hn), Nat.eqb_refl. cbn [rassert bind].
  rewrite E2. cbn [bind is_vec1 rassert]. rewrite E3. cbn [bind]. rewrite (shape_mat n k P) by auto. cbn [rassert bind]. rewrite E4. cbn [bind is_vec1 rassert]. rewrite E5. reflexivity.
Qed.
Lemma col0 n k A : is_mat n k A -> shaped n 1 (V (map (fun row => nth 0 row 0%R) A)).
Proof. intros HA. split; auto. unfold is_vec. rewrite map_length. apply (is_mat_len _ _ _ HA). Qed.
Lemma shaped_V n b v : same_kind (V v) b -> shaped n 1 b -> exists w, b = V w.
Proof. destruct b; cbn; [eauto|contradiction]. Qed.
Lemma basis_verdict n r k W A b draw X : basis_of n r W A b -> b_n b = Some n -> is_mat n k (X n) -> Forall (fun i => i < n) (draw n) ->
  exists P P2, b_project b (M (X n)) = Ok (M P) /\ b_project b (M P) = Ok (M P2) /\ is_mat n k P /\ is_mat n k P2 /\
  (b_verify b draw X = Ok tt \/ b_verify b draw X = Err VerificationError) /\ (b_verify b draw X = Ok tt <-> near n k P2 P).
Proof.
  intros Hb En HX Hdr. assert (Hn : 0 < n) by apply Hb. assert (Hr : 0 < r) by apply Hb.
  destruct (b_project_ok n r k W A b (M (X n)) Hb HX) as (q & p & E1 & E2 & E3 & Sq & Sp & Kp & Kq & _).
  destruct q as [|Q]; [contradiction|]. destruct p as [|P]; [contradiction|]. cbn [shaped] in Sq, Sp.
  destruct (b_project_ok n r k W A b (M P) Hb Sp) as (q2 & p2 & F1 & F2 & F3 & Sq2 & Sp2 & Kp2 & Kq2 & _). destruct p2 as [|P2]; [contradiction|]. cbn [shaped] in Sp2.
  exists P, P2. do 4 (split; auto).
  destruct (b_compress_ok n r 1 W A b _ Hb (col0 n k (X n) HX)) as (q1 & G1 & Sq1 & Kq1 & _). destruct (shaped_V r q1 _ Kq1 Sq1) as (v1 & ->).
  destruct (b_decompress_ok n r 1 W A b _ Hb Sq1) as (p1 & G2 & Sp1 & Kp1 & _). destruct (shaped_V n p1 _ Kp1 Sp1) as (w1 & ->).
  assert (EL : b_locs b draw (M Q) (M P) = Ok tt).
  { unfold b_locs, t_blocs. cbn [alen]. rewrite (is_mat_len _ _ _ Sp). destruct (C11_linear n r k W A b (M Q) (zlocs (draw n)) (draw n) Hb Sq (selects_z n _ Hdr)) as (x & K1 & _ & K2).
    rewrite E2 in K1. injection K1 as <-. rewrite K2. cbn [bind]. rewrite shape_refl, aclose_refl. reflexivity. }
  assert (EV : b_verify b draw X = rassert (aclose (M P2) (M P))).
  { unfold b_verify. rewrite En. rewrite (v_basis_val n r k X _ _ _ Q v1 P w1) by auto. rewrite F1. cbn [bind]. rewrite F2. reflexivity. }
  rewrite EV, <- (aclose_near n k) by auto. destruct (aclose (M P2) (M P)); cbn [rassert]; split; auto; split; auto; discriminate.
Qed.
Lemma near_refl n k A : near n k A A.
Proof. intros i j _ _. unfold SpecEq.close. rewrite Rminus_diag_eq, Rabs_R0 by auto. pose proof (Rabs_pos (mget A i j)). apply Rplus_le_le_0_compat; [|apply Rmult_le_pos; auto]; left; apply Rinv_0_lt_compat; lra. Qed.
Lemma basis_accepts n r k W A b draw X : basis_of n r W A b -> w_orthonormal n r W A -> b_n b = Some n -> is_mat n k (X n) -> Forall (fun i => i < n) (draw n) ->
  b_verify b draw X = Ok tt.
Proof.
  intros Hb Ho En HX Hdr. destruct (basis_verdict n r k W A b draw X Hb En HX Hdr) as (P & P2 & E1 & E2 & HP & HP2 & _ & H). apply H.
  destruct (C09_idem n r k W A b (M (X n)) Hb Ho HX) as (p & F1 & _ & F2). rewrite E1 in F1. injection F1 as <-. rewrite E2 in F2. injection F2 as ->. apply near_refl.
Qed.
(* BasisMulti *)
Lemma multi_locs ns rs bs k draw Q P : members ns rs bs -> bs <> [] -> Forall2 le rs ns -> is_mat (lsumn rs) k Q -> (forall m, Forall (fun i => i < m) (draw m)) ->
  bm_decompress bs (M Q) None = Ok (M P) -> is_mat (lsumn ns) k P -> bm_locs bs draw (M Q) (M P) = Ok tt.
Proof.
  intros Hm Hne Hle HQ Hdr E HP. unfold bm_locs. rewrite (members_full _ _ _ Hm). destruct (all_same ns) eqn:ES; cbn [negb]; auto.
  pose proof (proj1 (all_same_iff ns) ES) as HS. set (m := nth 0 ns 0). destruct (members_len _ _ _ Hm) as [L1 L2].
  assert (Ens : ns = repeat m (length bs)).
  { assert (K : forall x, In x ns -> x = m). { intros x Hx. apply HS; auto. unfold m. destruct ns; [destruct Hx|]. left; auto. }
    clearbody m. rewrite <- L1. clear -K. induction ns as [|x ns IH]; auto. cbn. f_equal; [apply K; left; auto|]. apply IH. intros; apply K; right; auto. }
  set (idx := draw m). rewrite (bsplit_full ns rs bs (M P) Hm) by apply (is_mat_len _ _ _ HP). cbn [bind].
  assert (Hle' : Forall (fun r => r <= m) rs).
  { clearbody m. clear -Hle Ens. rewrite Ens in Hle. clear Ens. remember (repeat m (length bs)) as l eqn:El. assert (K : Forall (fun x => x = m) l) by (subst l; apply Forall_forall; intros x Hx; apply repeat_spec in Hx; auto).
    clear El. induction Hle; constructor; inversion K; subst; auto. }
  assert (Hm' : members (repeat m (length bs)) rs bs) by (rewrite <- Ens; auto).
  destruct (C11_multi m rs bs k (M Q) (zlocs idx) idx Hm' Hne Hle' HQ (selects_z m idx (Hdr m))) as (x & y & F1 & F2 & Ax & Ay & G). rewrite E in F1. injection F1 as <-.
  set (ks := repeat (length idx) (length bs)) in *.
  assert (Eks : lsumn ks = length bs * length idx) by (unfold ks; clear; induction (length bs); cbn; auto).
  assert (Hks : ks <> []) by (unfold ks; destruct bs; [congruence|discriminate]). assert (Lks : length ks = length bs) by (unfold ks; apply repeat_length).
  assert (EW : map (asel idx) (split_rows ns (M P)) = split_rows ks y).
  { apply (nth_ext _ _ (V []) (V [])).
    - rewrite map_length, !split_rows_length. congruence.
    - intros i Hi. rewrite map_length, split_rows_length in Hi. rewrite (nth_map_in (asel idx) (split_rows ns (M P)) i (V []) (V [])) by (rewrite split_rows_length; auto).
      rewrite !var_rows_nth by lia. rewrite (G i) by lia. now rewrite Ens at 1. }
  rewrite EW. rewrite concat_split by (auto; lia). cbn [bind]. rewrite F2. cbn [bind]. rewrite shape_refl, aclose_refl. reflexivity.
Qed.
Lemma multi_verdict ns rs bs k draws Xs draw X : members ns rs bs -> bs <> [] -> Forall2 le rs ns -> is_mat (lsumn ns) k (X (lsumn ns)) -> (forall m, Forall (fun i => i < m) (draw m)) ->
  exists P P2, bm_project bs (M (X (lsumn ns))) = Ok (M P) /\ bm_project bs (M P) = Ok (M P2) /\ is_mat (lsumn ns) k P /\ is_mat (lsumn ns) k P2 /\
  (b_verify_all bs draws Xs 0 = Ok tt -> (bm_verify bs draws Xs draw X = Ok tt \/ bm_verify bs draws Xs draw X = Err VerificationError) /\ (bm_verify bs draws Xs draw X = Ok tt <-> near (lsumn ns) k P2 P)).
Proof.
  intros Hm Hne Hle HX Hdr. set (n := lsumn ns) in *. set (r := lsumn rs).
  assert (Hpos : 0 < n /\ 0 < r).
  { unfold n, r. destruct ns as [|n0 ns], rs as [|r0 rs], bs as [|b bs]; cbn in Hm; try tauto. destruct Hm as [(_ & _ & A & W & Hb) _]. destruct Hb as (H1 & H2 & _). unfold lsumn. cbn. lia. }
  destruct Hpos as [Hn Hr]. destruct (C12_comp ns rs bs k (M (X n)) Hm Hne HX) as (q & E1 & Sq & Kq & _). destruct q as [|Q]; [contradiction|]. cbn [shaped] in Sq.
  destruct (C12_decomp ns rs bs k (M Q) Hm Hne Hle Sq) as (p & E2 & Sp & Kp & _). destruct p as [|P]; [contradiction|]. cbn [shaped] in Sp.
  destruct (C12_comp ns rs bs k (M P) Hm Hne Sp) as (q2 & F1 & Sq2 & Kq2 & _). destruct (C12_decomp ns rs bs k q2 Hm Hne Hle Sq2) as (p2 & F2 & Sp2 & Kp2 & _).
  destruct q2 as [|Q2]; [contradiction|]. destruct p2 as [|P2]; [contradiction|]. cbn [shaped] in Sp2.
  exists P, P2. unfold bm_project, project. rewrite E1. cbn [bind]. rewrite F1. cbn [bind]. do 4 (split; auto). intros EA.
  destruct (C12_comp ns rs bs 1 _ Hm Hne (col0 n k (X n) HX)) as (q1 & G1 & Sq1 & Kq1 & _). destruct (shaped_V r q1 _ Kq1 Sq1) as (v1 & ->).
  destruct (C12_decomp ns rs bs 1 _ Hm Hne Hle Sq1) as (p1 & G2 & Sp1 & Kp1 & _). destruct (shaped_V n p1 _ Kp1 Sp1) as (w1 & ->).
  assert (EV : bm_verify bs draws Xs draw X = rassert (aclose (M P2) (M P))).
  { unfold bm_verify. rewrite EA, (members_full _ _ _ Hm). cbn [bind option_map]. fold n. rewrite (v_basis_val n r k X _ _ _ Q v1 P w1); auto; [rewrite F1; cbn [bind]; rewrite F2; reflexivity|].
    apply (multi_locs ns rs bs k); auto. }
  rewrite EV, <- (aclose_near n k) by auto. destruct (aclose (M P2) (M P)); cbn [rassert]; split; auto; split; auto; discriminate.
Qed.
Lemma multi_members ns rs bs k draws Xs : members ns rs bs -> Forall orthonormal bs -> (forall i m, is_mat m k (Xs i m)) -> (forall i m, Forall (fun a => a < m) (draws i m)) ->
  forall i, b_verify_all bs draws Xs i = Ok tt.
Proof.
  intros Hm Ho HX Hdr. revert ns rs Hm. induction Ho as [|b bs Hb Ho IH]; intros ns rs Hm i; auto. destruct ns as [|n ns], rs as [|r rs]; cbn in Hm; try tauto. destruct Hm as [Hmb Hm].
  cbn [b_verify_all]. destruct Hmb as (En & _ & A & W & HB). destruct Hb as (n' & r' & W' & A' & HB' & Ho').
  assert (A' = A /\ W' = W) as [-> ->]. { destruct HB as (_ & _ & _ & _ & Q1 & Q2), HB' as (_ & _ & _ & _ & Q3 & Q4). split; congruence. }
  assert (n' = n /\ r' = r) as [-> ->]. { destruct HB as (P1 & P2 & P3 & _), HB' as (P1' & P2' & P3' & _). assert (n' = n) by (rewrite <- (is_mat_len _ _ _ P3), <- (is_mat_len _ _ _ P3'); auto). subst n'.
    split; auto. rewrite <- (ncols_is_mat n r A P3 P1), <- (ncols_is_mat n r' A P3' P1). auto. }
  rewrite (basis_accepts n r k W A b) by (auto; apply Hdr). cbn [bind]. eapply IH; eauto.
Qed.
Lemma multi_accepts ns rs bs k draws Xs draw X : members ns rs bs -> bs <> [] -> Forall orthonormal bs -> (forall i m, is_mat m k (Xs i m)) -> (forall m, is_mat m k (X m)) ->
  (forall i m, Forall (fun a => a < m) (draws i m)) -> (forall m, Forall (fun i => i < m) (draw m)) -> bm_verify bs draws Xs draw X = Ok tt.
Proof.
  intros Hm Hne Ho HXs HX Hds Hdr. pose proof (members_orth _ _ _ Hm Ho) as Hle. destruct (multi_verdict ns rs bs k draws Xs draw X Hm Hne Hle (HX _) Hdr) as (P & P2 & E1 & E2 & HP & HP2 & H).
  destruct (H (multi_members ns rs bs k draws Xs Hm Ho HXs Hds 0)) as [_ K]. apply K. unfold bm_project, project in E1.
  destruct (bm_compress bs (M (X (lsumn ns)))) as [q|] eqn:EQ; [|discriminate]. cbn [bind] in E1. destruct (C12_comp ns rs bs k (M (X (lsumn ns))) Hm Hne (HX _)) as (q' & F1 & Sq & _). rewrite EQ in F1. injection F1 as <-.
  destruct (C12_round ns rs bs k q Hm Hne Ho Sq) as (x & G1 & _ & G2). rewrite E1 in G1. injection G1 as <-. unfold bm_project, project in E2. rewrite G2 in E2. cbn [bind] in E2. rewrite E1 in E2. injection E2 as <-. apply near_refl.
Qed.

(* ItpProofs.v -- interpolated operators: galerkin() and _from_operators(). *)
From Coq Require Import Permutation Sorted.
From Verif Require Import LinAlg MatAlg OpsProofs JacProofs GalProofs EntriesProofs.
From Verif Require Export AffProofs InterpProofs SpecItp.
#[local] Open Scope nat_scope.

Lemma points_shape p p0 ps : points p (p0 :: ps) ->
  plen p0 = p /\ forallb (fun x => (pndim x =? pndim p0) && (plen x =? plen p0)) (p0 :: ps) = true /\
  (if plen p0 =? 1 then map (fun x => PS (unscalar x)) (p0 :: ps) else p0 :: ps) = p0 :: ps.
Proof. intros [_ H]. assert (H0 := H). apply Forall_cons_iff in H0. destruct H0 as [[L0 S0] _]. split; auto. split.
  - apply forallb_forall. intros x Hx. rewrite Forall_forall in H. destruct (H x Hx) as [L S]. rewrite L, L0, Nat.eqb_refl, andb_true_r.
    apply Nat.eqb_eq. destruct (Nat.eq_dec p 1) as [E|E].
    + specialize (S E). specialize (S0 E). destruct x, p0; try discriminate; reflexivity.
    + destruct x; cbn in L; [lia|]. destruct p0; cbn in L0; [lia|]. reflexivity.
  - rewrite L0. destruct (Nat.eqb_spec p 1) as [E|E]; auto. rewrite <- (map_id (p0 :: ps)) at 2. apply map_ext_in. intros x Hx.
    rewrite Forall_forall in H. destruct (H x Hx) as [L S]. specialize (S E). destruct x; [reflexivity|discriminate]. Qed.
Lemma set_params_points c ic p ps : points p ps -> i_set_params (i_new c ic) ps =
  Ok {| i_cls := c; i_pdim := Some p; i_params := Some ps; i_entries := None; i_interp := None; i_iclass := ic |}.
Proof. intros H. destruct ps as [|p0 ps]; [destruct H; congruence|]. destruct (points_shape p p0 ps H) as [A [B D]].
  unfold i_set_params. cbn [i_new i_interp]. rewrite B. cbn [negb]. rewrite D. cbn [i_cls i_entries i_iclass]. rewrite A. reflexivity. Qed.

Section Build.
  Variables (cubic linearnd : iclass).
  Lemma init_user n m c p ps C ops f : 0 < n -> family n m c ops -> points p ps -> length ops = length ps -> C ps (map entries2 ops) = Ok f ->
    i_init cubic linearnd c ps (map entries2 ops) (Some C) = Ok {| i_cls := c; i_pdim := Some p; i_params := Some ps; i_entries := Some ops;
      i_interp := Some f; i_iclass := Some C |}.
  Proof. intros Hn HF HP HL HC. unfold i_init. rewrite (set_params_points c _ p) by auto. cbn [bind]. unfold i_set. cbn [i_params i_cls i_pdim i_iclass i_interp].
    rewrite (family_shapes n m c) by auto. cbn [negb]. rewrite map_length, HL, Nat.eqb_refl. cbn [negb]. rewrite (family_construct n m) by auto.
    unfold i_set_interp. cbn [i_entries i_params i_cls i_pdim]. rewrite HC. reflexivity. Qed.
  Lemma init_user_err n m c p ps C ops e : 0 < n -> family n m c ops -> points p ps -> length ops = length ps -> C ps (map entries2 ops) = Err e ->
    i_init cubic linearnd c ps (map entries2 ops) (Some C) = Err e.
  Proof. intros Hn HF HP HL HC. unfold i_init. rewrite (set_params_points c _ p) by auto. cbn [bind]. unfold i_set. cbn [i_params i_cls i_pdim i_iclass i_interp].
    rewrite (family_shapes n m c) by auto. cbn [negb]. rewrite map_length, HL, Nat.eqb_refl. cbn [negb]. rewrite (family_construct n m) by auto.
    unfold i_set_interp. cbn [i_entries i_params i_cls i_pdim]. rewrite HC. reflexivity. Qed.

  (* the constructor, class given *)
  Lemma init_interpolated n m c p ps C ops t : 0 < n -> family n m c ops -> points p ps -> length ops = length ps ->
    i_init cubic linearnd c ps (map entries2 ops) (Some C) = Ok t -> i_cls t = c /\ interpolated n m t ps p C ops.
  Proof. intros Hn HF HP HL Ht. destruct (C ps (map entries2 ops)) as [f|e] eqn:E.
    - assert (K := init_user n m c p ps C ops f Hn HF HP HL E). assert (K2 := eq_trans (eq_sym Ht) K). injection K2 as ->. unfold interpolated. cbn. split; auto. repeat split; auto; try apply HP. eauto.
    - assert (K := init_user_err n m c p ps C ops e Hn HF HP HL E). assert (K2 := eq_trans (eq_sym Ht) K). discriminate. Qed.

  (* the default class on increasing numbers is CubicSpline *)
  Lemma argsort_inc_seq key k : forall a, (forall i j, a <= i -> i < j -> j < a + k -> (key i < key j)%R) -> fold_right (ins key) [] (seq a k) = seq a k.
  Proof. induction k as [|k IH]; intros a H; cbn [seq fold_right]; auto. rewrite IH by (intros; apply H; lia). destruct k; cbn [seq ins]; auto.
    destruct (Rle_dec _ _) as [|Hn]; auto. exfalso. apply Hn. left. apply H; lia. Qed.
  Lemma argsort_inc xs : strictly_inc xs -> argsort xs = seq 0 (length xs).
  Proof. intros H. apply argsort_inc_seq. intros i j _ Hij Hj. apply H; lia. Qed.
  Lemma take_at_seq {A} (d : A) l : take_at d l (seq 0 (length l)) = l.
  Proof. unfold take_at. induction l as [|a l IH]; cbn; auto. f_equal. rewrite <- seq_shift, map_map. exact IH. Qed.
  Lemma points_scalars xs : xs <> [] -> points 1 (map PS xs).
  Proof. intros H. split; [destruct xs; [congruence|discriminate]|]. apply Forall_forall. intros x Hx. apply in_map_iff in Hx. destruct Hx as [y [<- _]]. cbn. auto. Qed.
  Lemma set_interp_default t xs ops : i_entries t = Some ops -> i_params t = Some (map PS xs) -> length ops = length xs -> strictly_inc xs ->
    i_set_interp cubic linearnd t None = i_set_interp cubic linearnd t (Some cubic).
  Proof. intros He Hp HL HI. unfold i_set_interp. rewrite He, Hp, scalars_all, unscalar_all, (argsort_inc xs HI).
    replace (take_at (PS 0) (map PS xs) (seq 0 (length xs))) with (map PS xs) by (rewrite <- (map_length PS xs); rewrite take_at_seq; reflexivity).
    replace (take_at [] (map entries2 ops) (seq 0 (length xs))) with (map entries2 ops) by (rewrite <- HL, <- (map_length entries2 ops); rewrite take_at_seq; reflexivity).
    reflexivity. Qed.
  Lemma init_default n m c xs ops : 0 < n -> family n m c ops -> xs <> [] -> strictly_inc xs -> length ops = length xs ->
    forall t, i_init cubic linearnd c (map PS xs) (map entries2 ops) None = Ok t -> i_cls t = c /\ interpolated n m t (map PS xs) 1 cubic ops.
  Proof. intros Hn HF Hx HI HL t Ht. apply (init_interpolated n m c 1 (map PS xs) cubic ops t); auto. apply points_scalars; auto. rewrite map_length; auto.
    rewrite <- Ht. clear Ht. unfold i_init. rewrite !(set_params_points c _ 1) by (apply points_scalars; auto). cbn [bind]. unfold i_set.
    cbn [i_params i_cls i_pdim i_iclass i_interp]. destruct (negb _); auto. rewrite !map_length, HL, Nat.eqb_refl. cbn [negb]. rewrite (family_construct n m) by auto.
    rewrite (set_interp_default {| i_cls := c; i_pdim := Some 1; i_params := Some (map PS xs); i_entries := Some ops; i_interp := None; i_iclass := None |} xs ops) by auto.
    unfold i_set_interp. cbn [i_entries i_params i_cls i_pdim]. destruct (cubic _ _); reflexivity. Qed.
End Build.

Lemma itp_eval_point n m t ps p C ops i : 0 < n -> interpolated n m t ps p C ops -> interpolates C ps (PS 0) -> i < length ps ->
  i_evaluate t (nth i ps (PS 0)) = Ok (nth i ops (OConst [])).
Proof. intros Hn (He & HF & HL & Hp & HP & Hd & Hc & f & Hf & HC) HI Hi. unfold i_evaluate. rewrite He, Hf, Hd.
  destruct HP as [_ HP]. assert (HP' := HP). rewrite Forall_forall in HP'. destruct (HP' (nth i ps (PS 0))) as [L S]; [apply nth_In; auto|].
  rewrite L, Nat.eqb_refl. cbn [negb].
  replace (if p =? 1 then PS (unscalar (nth i ps (PS 0))) else nth i ps (PS 0)) with (nth i ps (PS 0)).
  2:{ destruct (Nat.eqb_spec p 1) as [E|E]; auto. specialize (S E). destruct (nth i ps (PS 0)); [reflexivity|discriminate]. }
  destruct (HI (map entries2 ops)) as [f' [Hf' Hv]]; [rewrite map_length; auto|]. rewrite HC in Hf'. injection Hf' as <-.
  rewrite Hv by auto. cbn [bind]. change (@nil (list R)) with (entries2 (OConst [])). rewrite map_nth.
  unfold family in HF. rewrite Forall_forall in HF. destruct (HF (nth i ops (OConst []))) as [Hw Hcl]; [apply nth_In; lia|].
  rewrite <- Hcl. apply (construct_id n m); auto. Qed.

(* ---- galerkin() --------------------------------------------------------------------------------------------------- *)
Section Gal.
  Variables (X : pext) (solve : mat -> mat -> res mat) (junk : nat -> vec) (n r m : nat) (Vr : mat) (Wr : option mat).
  Hypotheses (Hsolve : solve_spec solve) (Hj : forall k, length (junk k) = k) (Hn : 0 < n) (Hr : 0 < r) (Hm : 0 < m).
  Hypotheses (HV : is_mat n r Vr) (HW : is_mat n r (testbasis Vr Wr)).
  Hypothesis Hclose : matmul (mT (testbasis Vr Wr)) Vr = eye r \/ allclose (matmul (mT (testbasis Vr Wr)) Vr) (eye r) = false.

  Lemma gal_family c ops gs : family n m c ops -> Forall2 (fun o g => galerkin solve junk o Vr Wr = Ok g) ops gs -> family r m c gs.
  Proof. unfold family. intros HF E. induction E as [|o g ops gs Hg E IH]; constructor.
    - apply Forall_cons_iff in HF. destruct HF as [[Hw Hc] HF]. split.
      + eapply (galerkin_commutes solve junk n r m o Vr Wr); eauto.
      + rewrite (galerkin_cls _ _ _ _ _ _ Hg). auto.
    - apply IH. apply Forall_cons_iff in HF. tauto. Qed.
  Lemma gal_entries c ops : family n m c ops ->
    mapM (fun A => do o <- construct c A; galerkin solve junk o Vr Wr) (map entries2 ops) = mapM (fun o => galerkin solve junk o Vr Wr) ops.
  Proof. induction 1 as [|o ops [Hw Hc] HF IH]; auto. cbn. rewrite <- Hc at 1. rewrite (construct_id n m) by auto. cbn [bind]. rewrite IH. reflexivity. Qed.

  Lemma igal_inv t ps p C ops tg : interpolated n m t ps p C ops -> i_galerkin X solve junk t Vr Wr = Ok tg ->
    exists gs, Forall2 (fun o g => galerkin solve junk o Vr Wr = Ok g) ops gs /\ i_cls tg = i_cls t /\ interpolated r m tg ps p C gs.
  Proof. intros (He & HF & HL & Hp & HP & Hd & Hc & f & Hf & HC). unfold i_galerkin. rewrite He, (gal_entries (i_cls t)) by auto.
    destruct (mapM _ ops) as [gs|] eqn:E; [|discriminate]. cbn [bind]. rewrite Hp, Hc. intros H. apply mapM_Forall2 in E.
    exists gs. split; auto. eapply init_interpolated; [exact Hr|apply (gal_family _ ops); auto|exact HP| |exact H].
    rewrite <- HL. symmetry. eapply Forall2_len; eauto. Qed.

  (* at the training parameters: the projected operators *)
  Lemma igal_at_points t ps p C ops tg : interpolated n m t ps p C ops -> interpolates C ps (PS 0) -> i_galerkin X solve junk t Vr Wr = Ok tg ->
    i_cls tg = i_cls t /\ i_params tg = i_params t /\ i_iclass tg = i_iclass t /\
    forall i, i < length ps -> exists o g, i_evaluate t (nth i ps (PS 0)) = Ok o /\ galerkin solve junk o Vr Wr = Ok g /\ i_evaluate tg (nth i ps (PS 0)) = Ok g.
  Proof. intros HT HI H. destruct (igal_inv t ps p C ops tg HT H) as (gs & HG & Hcl & HTg). split; auto.
    assert (HT' := HT). destruct HT' as (He & HF & HL & Hp & HP & Hd & Hc & _). assert (HTg' := HTg). destruct HTg' as (_ & _ & HLg & Hpg & _ & _ & Hcg & _).
    split; [congruence|]. split; [congruence|]. intros i Hi. exists (nth i ops (OConst [])), (nth i gs (OConst [])).
    rewrite (itp_eval_point n m t ps p C ops i), (itp_eval_point r m tg ps p C gs i) by auto. split; auto. split; auto.
    apply (Forall2_nth _ ops gs (OConst []) (OConst []) HG). lia. Qed.
  Lemma igal_defined t ps p C ops : interpolated n m t ps p C ops -> interpolates C ps (PS 0) ->
    ((exists tg, i_galerkin X solve junk t Vr Wr = Ok tg) <-> forall o, In o ops -> exists g, galerkin solve junk o Vr Wr = Ok g).
  Proof. intros HT HI. split.
    - intros [tg H]. destruct (igal_inv t ps p C ops tg HT H) as (gs & HG & _). intros o Ho. clear - HG Ho. induction HG; [destruct Ho|]. destruct Ho as [->|Ho]; eauto.
    - destruct HT as (He & HF & HL & Hp & HP & Hd & Hc & f & Hf & HC). intros H. assert (HG : exists gs, Forall2 (fun o g => galerkin solve junk o Vr Wr = Ok g) ops gs).
      { clear - H. induction ops as [|o ops IH]; [exists []; auto|]. destruct (H o (or_introl eq_refl)) as [g Hg]. destruct IH as [gs HG]; [intros; apply H; right; auto|]. exists (g :: gs). auto. }
      destruct HG as [gs HG]. destruct (HI (map entries2 gs)) as [fg [Hfg _]]. { rewrite map_length, <- HL. symmetry. eapply Forall2_len; eauto. }
      unfold i_galerkin. rewrite He, (gal_entries (i_cls t)) by auto. rewrite (proj2 (mapM_Forall2 _ ops gs) HG). cbn [bind]. rewrite Hp, Hc. eexists.
      apply (init_user (px_cubic X) (px_linnd X) r m (i_cls t) p ps C gs fg); auto. { apply (gal_family _ ops); auto. } rewrite <- HL. symmetry. eapply Forall2_len; eauto. Qed.
  Lemma igal_raises t ps p C ops pre o e : interpolated n m t ps p C (pre ++ o :: ops) -> Forall (fun o => exists g, galerkin solve junk o Vr Wr = Ok g) pre ->
    galerkin solve junk o Vr Wr = Err e -> i_galerkin X solve junk t Vr Wr = Err e.
  Proof. intros (He & HF & HL & Hp & HP & Hd & Hc & f & Hf & HC) HPre Ho. unfold i_galerkin. rewrite He, (gal_entries (i_cls t)) by auto.
    replace (mapM (fun o0 => galerkin solve junk o0 Vr Wr) (pre ++ o :: ops)) with (Err e : res (list op)); auto.
    symmetry. clear - HPre Ho. induction HPre as [|a pre [g Hg] HPre IH]; cbn; [rewrite Ho; auto|]. rewrite Hg, IH. reflexivity. Qed.

  (* between the training parameters, for classes that are linear in the data *)
  Hypotheses (P : mat) (HP : is_mat r r P) (HPi : matmul P (matmul (mT (testbasis Vr Wr)) Vr) = eye r).

  Definition weights_aff (c : cls) (k p : nat) (w : vec) (ops : list op) : aff :=
    {| a_cls := c; a_theta := fun _ => TV w; a_nterms := k; a_pdim := Some p; a_entries := Some ops |}.
  Lemma eval_as_affine k t ps p C ops mu w : 0 < k -> interpolated k m t ps p C ops -> plen mu = p -> linear_at C ps (as_point p mu) w ->
    i_evaluate t mu = snd (aff_evaluate (weights_aff (i_cls t) (length ps) p w ops) mu).
  Proof. intros Hk (He & HF & HL & Hp & HPt & Hd & Hc & f & Hf & HC) Hmu [Hw HLn]. unfold i_evaluate. rewrite He, Hf, Hd, Hmu, Nat.eqb_refl. cbn [negb].
    fold (as_point p mu). destruct (HLn k (opdim (proto (i_cls t)) k m) (map entries2 ops)) as (f' & E & Hf' & HE & Hsh & Hv).
    { rewrite map_length; auto. } { apply family_mats; auto. }
    rewrite HC in Hf'. injection Hf' as <-. rewrite HE. cbn [bind]. unfold aff_evaluate, weights_aff. cbn [a_entries a_pdim snd a_cls]. rewrite Hmu, Nat.eqb_refl. cbn [negb thetas a_theta bind].
    f_equal. assert (Hne : ops <> []). { destruct HPt as [Hps _]. destruct ops; [destruct ps; cbn in HL; [congruence|lia]|discriminate]. }
    destruct (lincomb_ok k (opdim (proto (i_cls t)) k m) w (map entries2 ops)) as [S1 S2].
    { destruct ops; [congruence|discriminate]. } { rewrite map_length. lia. } { apply family_mats; auto. }
    apply (mat_ext k (opdim (proto (i_cls t)) k m)); auto. intros i j Hi Hj'. rewrite S2, Hv by auto. rewrite map_length, HL. reflexivity. Qed.

  Lemma igal_commutes t ps p C ops tg mu w : interpolated n m t ps p C ops -> i_galerkin X solve junk t Vr Wr = Ok tg ->
    plen mu = p -> linear_at C ps (as_point p mu) w ->
    exists o og, i_evaluate t mu = Ok o /\ i_evaluate tg mu = Ok og /\ wf_op n m o /\ wf_op r m og /\ cls_of o = i_cls t /\ cls_of og = i_cls t /\
    forall g, galerkin solve junk o Vr Wr = Ok g -> forall q u, is_vec r q -> is_vec m u -> apply og (V q) (V u) = apply g (V q) (V u).
  Proof. intros HT H Hmu HL. destruct (igal_inv t ps p C ops tg HT H) as (gs & HG & Hcl & HTg).
    rewrite (eval_as_affine n t ps p C ops mu w Hn HT Hmu HL), (eval_as_affine r tg ps p C gs mu w Hr HTg Hmu HL). rewrite Hcl.
    assert (HT' := HT). destruct HT' as (He & HF & HLo & Hp & [Hne _] & _). assert (HTg' := HTg). destruct HTg' as (_ & HFg & HLg & _). rewrite Hcl in HFg.
    set (a := weights_aff (i_cls t) (length ps) p w ops). set (ag := {| a_cls := i_cls t; a_theta := fun _ => TV w; a_nterms := length ps; a_pdim := None; a_entries := Some gs |}).
    assert (Hps : 0 < length ps) by (destruct ps; [congruence|cbn; lia]).
    assert (HA : affine_of n m a ops). { split; [reflexivity|]. split; [exact HF|]. split; [exact HLo|exact Hps]. }
    assert (HAg : aff_galerkin solve junk a Vr Wr = Ok ag). { unfold aff_galerkin. cbn [a a_entries weights_aff]. rewrite (proj2 (mapM_Forall2 _ ops gs) HG). cbn [bind]. rewrite (aff_set_ok r m) by (cbn; auto). reflexivity. }
    destruct HL as [Hw _]. destruct (affine_galerkin_commutes solve junk n r m a ops Vr Wr P Hsolve Hj Hn Hr Hm HA HV HW Hclose HP HPi ag mu w HAg Hmu eq_refl Hw) as (o & og & E1 & E2 & E3).
    assert (EE : snd (aff_evaluate (weights_aff (i_cls t) (length ps) p w gs) mu) = snd (aff_evaluate ag mu)).
    { unfold aff_evaluate, ag, weights_aff. cbn. rewrite Hmu, !Nat.eqb_refl. reflexivity. }
    exists o, og. rewrite EE. split; auto. split; auto.
    destruct (evaluate_ok n m a ops mu w Hn HA Hmu eq_refl Hw) as (o' & F1 & F2 & F3 & _). rewrite E1 in F1. injection F1 as <-.
    assert (HA2 : affine_of r m ag gs). { split; [reflexivity|]. split; [exact HFg|]. split; [exact HLg|exact Hps]. }
    destruct (evaluate_ok r m ag gs mu w Hr HA2 I eq_refl Hw) as (og' & G1 & G2 & G3 & _). rewrite E2 in G1. injection G1 as <-. auto. Qed.
End Gal.

(* the default class and training parameters that are not sorted *)
Lemma igal_unsorted X solve junk n r m c xs ops gs Vr Wr : 0 < n -> 0 < r ->
  (forall xs, 2 <= length xs -> strictly_inc xs -> interpolates (px_cubic X) (map PS xs) (PS 0)) ->
  (forall xs es, ~ strictly_inc xs -> px_cubic X (map PS xs) es = Err ValueError) ->
  family n m c ops -> family r m c gs -> Forall2 (fun o g => galerkin solve junk o Vr Wr = Ok g) ops gs ->
  NoDup xs -> 2 <= length xs -> ~ strictly_inc xs -> length ops = length xs ->
  exists t, i_init (px_cubic X) (px_linnd X) c (map PS xs) (map entries2 ops) None = Ok t /\
   (forall i, i < length xs -> i_evaluate t (PS (vget xs i)) = Ok (nth i ops (OConst []))) /\
   i_galerkin X solve junk t Vr Wr = Err ValueError.
Proof. intros Hn Hr Hc Hx HF HFg HG HN H2 HI HL. destruct (i_init_default (px_cubic X) (px_linnd X) Hc n m c xs ops Hn HF HN H2 HL) as (t & E1 & E2 & E3 & E4 & E5 & E6 & E7).
  exists t. split; auto. split; auto. unfold i_galerkin. rewrite E2, E4, (gal_entries solve junk n m Vr Wr Hn c) by auto. rewrite (proj2 (mapM_Forall2 _ ops gs) HG). cbn [bind]. rewrite E3, E5.
  apply (init_user_err (px_cubic X) (px_linnd X) r m c 1); auto. { apply points_scalars. destruct xs; [cbn in H2; lia|discriminate]. }
  rewrite map_length, <- HL. symmetry. eapply Forall2_len; eauto. Qed.

(* ---- _from_operators() ----------------------------------------------------------------------------------------------- *)
Lemma cls_eqb_eq a b : cls_eqb a b = true <-> a = b.
Proof. split; [|intros ->; destruct b; auto; destruct d; auto]. destruct a, b; cbn; try discriminate; auto. destruct d, d0; cbn; try discriminate; auto. Qed.
Lemma check_operators_ok c ops : check_operators c (map (as_mop c) ops) = Ok (map entries2 ops).
Proof. induction ops as [|o ops IH]; auto. cbn. replace (cls_eqb c c) with true by (symmetry; apply cls_eqb_eq; auto). cbn. rewrite IH. reflexivity. Qed.
Lemma from_operators_user X n m c p ps C ops : 0 < n -> family n m c ops -> points p ps -> length ops = length ps -> interpolates C ps (PS 0) ->
  exists t, i_from_operators X c ps (map (as_mop c) ops) (Some C) = Ok t /\ i_cls t = c /\ interpolated n m t ps p C ops /\
  forall i, i < length ps -> i_evaluate t (nth i ps (PS 0)) = Ok (nth i ops (OConst [])).
Proof. intros Hn HF HP HL HI. destruct (HI (map entries2 ops)) as [f [Hf _]]; [rewrite map_length; auto|].
  unfold i_from_operators. rewrite check_operators_ok. cbn [bind]. assert (E := init_user (px_cubic X) (px_linnd X) n m c p ps C ops f Hn HF HP HL Hf).
  eexists. split; [exact E|]. destruct (init_interpolated (px_cubic X) (px_linnd X) n m c p ps C ops _ Hn HF HP HL E) as [Hc HT]. split; auto. split; auto.
  intros i Hi. eapply itp_eval_point; eauto. Qed.
Lemma from_operators_default X n m c xs ops : (forall xs, 2 <= length xs -> strictly_inc xs -> interpolates (px_cubic X) (map PS xs) (PS 0)) ->
  0 < n -> family n m c ops -> NoDup xs -> 2 <= length xs -> length ops = length xs ->
  exists t, i_from_operators X c (map PS xs) (map (as_mop c) ops) None = Ok t /\
  forall i, i < length xs -> i_evaluate t (PS (vget xs i)) = Ok (nth i ops (OConst [])).
Proof. intros HC Hn HF HN H2 HL. unfold i_from_operators. rewrite check_operators_ok. cbn [bind].
  destruct (i_init_default (px_cubic X) (px_linnd X) HC n m c xs ops Hn HF HN H2 HL) as (t & E1 & E2 & E3 & E4 & E5 & E6 & E7). exists t. auto. Qed.
(* the refusals: what comes before is as it should be *)
Lemma check_operators_app c pre l : check_operators c (map (as_mop c) pre ++ l) = do es <- check_operators c l; Ok (map entries2 pre ++ es).
Proof. induction pre as [|o pre IH]; cbn. { destruct (check_operators c l); auto. }
  replace (cls_eqb c c) with true by (symmetry; apply cls_eqb_eq; auto). cbn. rewrite IH. destruct (check_operators c l); auto. Qed.
Lemma from_operators_rejects X c ps pre o post ic :
  (mo_cls o <> c -> i_from_operators X c ps (map (as_mop c) pre ++ o :: post) ic = Err TypeError) /\
  (mo_cls o = c -> mo_ent o = None -> i_from_operators X c ps (map (as_mop c) pre ++ o :: post) ic = Err ValueError).
Proof. unfold i_from_operators. rewrite check_operators_app. cbn [check_operators]. split.
  - intros H. destruct (cls_eqb (mo_cls o) c) eqn:E; [apply cls_eqb_eq in E; congruence|]. reflexivity.
  - intros H1 H2. rewrite H1, H2. replace (cls_eqb c c) with true by (symmetry; apply cls_eqb_eq; auto). reflexivity. Qed.

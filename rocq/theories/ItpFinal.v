(* ItpFinal.v -- galerkin() of parametric models; interpolating existing models. *)
From Verif Require Import LinAlg MatAlg OpsProofs GalProofs EntriesProofs MonoVals MonoRhs MonoInv MonoLists ParaVals ParaBest ParaFinal.
From Verif Require Export ItpProofs SpecPara.
#[local] Open Scope nat_scope.

Section ModelGal.
  Variables (X : pext) (solve : mat -> mat -> res mat) (junk : nat -> vec) (n r m : nat) (Vr : mat) (Wr : option mat) (P : mat).
  Hypotheses (Hsolve : solve_spec solve) (Hj : forall k, length (junk k) = k) (Hn : 0 < n) (Hr : 0 < r) (Hm : 0 < m).
  Hypotheses (HV : is_mat n r Vr) (HW : is_mat n r (testbasis Vr Wr)).
  Hypothesis Hclose : matmul (mT (testbasis Vr Wr)) Vr = eye r \/ allclose (matmul (mT (testbasis Vr Wr)) Vr) (eye r) = false.
  Hypotheses (HP : is_mat r r P) (HPi : matmul P (matmul (mT (testbasis Vr Wr)) Vr) = eye r).

  Definition agrees (e e' : mop) : Prop := forall x g, mo_ent e = Some x -> galerkin solve junk x Vr Wr = Ok g ->
    exists x', mo_ent e' = Some x' /\ forall q u, is_vec r q -> is_vec m u -> apply x' (V q) (V u) = apply g (V q) (V u).
  Definition one_gal (mu : pval) (o og : pop) : Prop := pcls og = pcls o /\ puncal og = false /\ (pdim og = None \/ pdim og = Some (plen mu)) /\
    exists e e', snd (pop_eval o mu) = Ok e /\ snd (pop_eval og mu) = Ok e' /\ sized n m e /\ sized r m e' /\ mo_cls e = pcls o /\ mo_cls e' = pcls o /\ agrees e e'.
  Lemma pop_gal mu o og : ready n m mu o -> pop_galerkin X solve junk o Vr Wr = Ok og -> one_gal mu o og.
  Proof. intros HR H. destruct o as [o|a|t]; cbn [ready pop_galerkin] in *.
    - destruct HR as (x & Ex & Hc & Hw). rewrite Ex in H. destruct (galerkin solve junk x Vr Wr) as [g|] eqn:Eg; [|discriminate]. cbn [bind] in H. injection H as <-.
      split; [reflexivity|]. split; [reflexivity|]. split; [left; reflexivity|]. exists o, {| mo_cls := mo_cls o; mo_ent := Some g |}. cbn [pop_eval snd pcls mo_cls].
      destruct (galerkin_commutes solve junk n r m x Vr Wr Hsolve Hj Hn Hr Hm Hw HV HW Hclose g Eg) as [Hg _].
      split; auto. split; auto. split; [exists x; auto|]. split; [exists g; cbn; split; auto; split; auto; rewrite <- Hc; apply (galerkin_cls _ _ _ _ _ _ Eg)|].
      split; auto. split; auto. intros y g' Ey Eg'. cbn. exists g. split; auto. intros. congruence.
    - destruct HR as (ops & HA & Hpd & th & Ht & HL). assert (HA' := HA). destruct HA' as (He & HF & HLo & Hk). unfold puncal in H. cbn [pentries] in H. rewrite He in H.
      destruct (aff_galerkin solve junk a Vr Wr) as [b|] eqn:Eb; [|discriminate]. cbn [bind] in H. injection H as <-.
      destruct (affgal_terms solve junk n r m a ops Vr Wr Hsolve Hj Hn Hr Hm HA HV HW Hclose b Eb) as (gs & HB & Eth & Ent & Ec & Epd & HG).
      destruct (affine_galerkin_commutes solve junk n r m a ops Vr Wr P Hsolve Hj Hn Hr Hm HA HV HW Hclose HP HPi b mu th Eb Hpd Ht HL) as (o & og & E1 & E2 & E3).
      destruct (evaluate_ok n m a ops mu th Hn HA Hpd Ht HL) as (o' & F1 & F2 & F3 & _). rewrite E1 in F1. injection F1 as <-.
      assert (Htb : thetas b mu = Ok th) by (unfold thetas in *; rewrite Eth, Ent; auto).
      destruct (evaluate_ok r m b gs mu th Hr HB) as (og' & G1 & G2 & G3 & _); auto. { rewrite Epd; auto. } { congruence. } rewrite E2 in G1. injection G1 as <-.
      split; [exact Ec|]. split. { unfold puncal. cbn [pentries]. destruct HB as (Hbe & _). rewrite Hbe. reflexivity. } split; [left; exact Epd|].
      exists {| mo_cls := a_cls a; mo_ent := Some o |}, {| mo_cls := a_cls b; mo_ent := Some og |}. cbn [pop_eval snd pcls mo_cls].
      split. { destruct (aff_evaluate a mu) as [a' y]. cbn in E1 |- *. rewrite E1. reflexivity. }
      split. { destruct (aff_evaluate b mu) as [b' y]. cbn in E2 |- *. rewrite E2. reflexivity. }
      split; [exists o; auto|]. split; [exists og; auto|]. split; auto. split; auto.
      intros y g Ey Eg. cbn in Ey. injection Ey as <-. exists og. split; auto.
    - destruct HR as (ps & p & C & ops & w & HT & Hp & HL). assert (HT' := HT). destruct HT' as (He & _). unfold puncal in H. cbn [pentries] in H. rewrite He in H.
      destruct (i_galerkin X solve junk t Vr Wr) as [s|] eqn:Es; [|discriminate]. cbn [bind] in H. injection H as <-.
      destruct (igal_inv X solve junk n r m Vr Wr Hsolve Hj Hn Hr Hm HV HW Hclose t ps p C ops s HT Es) as (gs & HG & Hcl & HTg).
      destruct (igal_commutes X solve junk n r m Vr Wr Hsolve Hj Hn Hr Hm HV HW Hclose P HP HPi t ps p C ops s mu w HT Es Hp HL) as (o & og & E1 & E2 & W1 & W2 & C1 & C2 & E3).
      destruct HTg as (Heg & _ & _ & _ & _ & Hdg & _). split; [exact Hcl|]. split. { unfold puncal. cbn [pentries]. rewrite Heg. reflexivity. } split; [right; cbn; congruence|].
      exists {| mo_cls := i_cls t; mo_ent := Some o |}, {| mo_cls := i_cls s; mo_ent := Some og |}. cbn [pop_eval snd pcls mo_cls]. rewrite E1, E2.
      split; auto. split; auto. split; [exists o; auto|]. split; [exists og; rewrite Hcl; auto|]. split; auto. split; auto.
      intros y g Ey Eg. cbn in Ey. injection Ey as <-. exists og. split; auto. Qed.

  Lemma eval_with_pdim mu o e : pdim o = None -> snd (pop_eval o mu) = Ok e -> snd (pop_eval (with_pdim (plen mu) o) mu) = Ok e.
  Proof. destruct o as [o|a|t]; cbn; auto.
    - intros Hp. unfold aff_evaluate. cbn. destruct (a_entries a); cbn; auto. rewrite Hp, Nat.eqb_refl. auto.
    - intros Hp. unfold i_evaluate. cbn. destruct (i_entries t); [|discriminate]. destruct (i_interp t); [|discriminate]. rewrite Hp. discriminate. Qed.
  Lemma with_pdim_cls p o : pcls (with_pdim p o) = pcls o /\ puncal (with_pdim p o) = puncal o. Proof. destruct o; auto. Qed.

  (* the operators of a new model: those given, except that a missing parameter dimension may be filled in *)
  Lemma pmk_ops k l a d : pmk_model k (map POp l) a = Ok d -> pm_kind d = k /\ exists q, one_of (somes (map pdim l)) = Ok q /\
    pm_ops d = match q with None => l | Some p => map (fun o => match pdim o with None => with_pdim p o | Some _ => o end) l end.
  Proof. unfold pmk_model. intros H0. assert (H : match map POp l with [] => Err ValueError | _ =>
      do ops <- mapM presolve (map POp l);
      if duplicates (map pcls (filter puncal ops)) then Err ValueError else
      do r <- pstate_dim ops; do m <- pinput_dim ops;
      let toinfer := pindices puncal ops in
      let d := {| pm_kind := k; pm_ops := ops; pm_infer := toinfer; pm_known := pindices (fun o => negb (puncal o)) ops;
                  pm_hasin := existsb ptakes ops; pm_r := r; pm_m := m; pm_p := None; pm_s := None;
                  pm_intrusive := length toinfer =? 0; pm_solver := None |} in
      match pseq (psync None d) (fun d _ => pset_solver a d) with (d, Ok _) => Ok d | (_, Err e) => Err e end end = Ok d) by exact H0. clear H0. revert H.
    destruct (map POp l) as [|z zs] eqn:Ez; [discriminate|]. rewrite <- Ez. clear z zs Ez.
    replace (mapM presolve (map POp l)) with (Ok l). 2:{ symmetry. rewrite mapM_Forall2. induction l; constructor; auto. }
    cbn [bind]. destruct (duplicates _); [discriminate|]. destruct (pstate_dim l) as [rr|]; [|discriminate]. cbn [bind]. destruct (pinput_dim l) as [mm|]; [|discriminate]. cbn [bind].
    unfold psync. cbn [pm_ops]. destruct (one_of (somes (map pdim l))) as [q|] eqn:Eq; [|discriminate]. cbn [pseq].
    destruct q as [q|]; cbn [pseq].
    - unfold pset_solver. cbn [pm_intrusive pw_p pw_ops]. destruct (_ =? 0); intros H.
      + injection H as <-. split; [reflexivity|]. exists (Some q). auto.
      + destruct a as [|x|s|]; try discriminate.
        * injection H as <-. split; [reflexivity|]. exists (Some q). auto.
        * destruct (Req_EM_T x 0); [injection H as <-; split; [reflexivity|]; exists (Some q); auto|]. destruct (Rlt_dec 0 x); [|discriminate]. injection H as <-. split; [reflexivity|]. exists (Some q). auto.
        * injection H as <-. split; [reflexivity|]. exists (Some q). auto.
    - unfold pset_solver. cbn [pm_intrusive pw_p pw_ops]. destruct (_ =? 0); intros H.
      + injection H as <-. split; [reflexivity|]. exists None. auto.
      + destruct a as [|x|s|]; try discriminate.
        * injection H as <-. split; [reflexivity|]. exists None. auto.
        * destruct (Req_EM_T x 0); [injection H as <-; split; [reflexivity|]; exists None; auto|]. destruct (Rlt_dec 0 x); [|discriminate]. injection H as <-. split; [reflexivity|]. exists None. auto.
        * injection H as <-. split; [reflexivity|]. exists None. auto. Qed.

  Lemma one_gal_sync mu l lg q : Forall2 (one_gal mu) l lg -> one_of (somes (map pdim lg)) = Ok q ->
    Forall2 (one_gal mu) l (match q with None => lg | Some p => map (fun o => match pdim o with None => with_pdim p o | Some _ => o end) lg end).
  Proof. intros HF Hq. destruct q as [p|]; auto. assert (Hp : p = plen mu).
    { apply one_of_ok in Hq. destruct Hq as [Hne Hall]. destruct (somes (map pdim lg)) as [|b bs] eqn:Es; [congruence|]. apply Forall_inv in Hall. subst b.
      assert (Hin : In p (somes (map pdim lg))) by (rewrite Es; left; auto). unfold somes in Hin. apply in_flat_map in Hin. destruct Hin as (x & Hx & Hpx). apply in_map_iff in Hx. destruct Hx as (o & Ho & Hin).
      destruct x as [y|]; [|destruct Hpx]. destruct Hpx as [->|[]]. clear - HF Ho Hin. induction HF as [|a b l lg H HF IH]; [destruct Hin|]. destruct Hin as [->|Hin]; [|auto]. destruct H as (_ & _ & [K|K] & _); congruence. }
    subst p. clear Hq. induction HF as [|o og l lg H HF IH]; constructor; auto. destruct (pdim og) eqn:Ed; auto.
    destruct H as (A & B & _ & e & e' & E1 & E2 & E3). destruct (with_pdim_cls (plen mu) og) as [K1 K2]. split; [congruence|]. split; [congruence|]. split.
    { destruct og; cbn; auto. } exists e, e'. split; auto. split; auto. apply eval_with_pdim; auto. Qed.

  Lemma pgal_commutes d dg mu : pm_ops d <> [] -> Forall (ready n m mu) (pm_ops d) -> pgalerkin X solve junk d Vr Wr = Ok dg ->
    pm_kind dg = pm_kind d /\ map pcls (pm_ops dg) = map pcls (pm_ops d) /\
    exists e e', snd (pevaluate d mu) = Ok e /\ snd (pevaluate dg mu) = Ok e' /\ m_r e = Some n /\ m_r e' = Some r /\
    forall eg, galerkin_model solve junk e Vr Wr = Ok eg -> forall q u, is_vec r q -> pinput_for d m u ->
      rhs e' (V q) (option_map V u) = rhs eg (V q) (option_map V u).
  Proof. intros Hne HR H. unfold pgalerkin in H. destruct (mapM _ (pm_ops d)) as [lg|] eqn:EL; [|discriminate]. cbn [bind] in H. apply mapM_Forall2 in EL.
    destruct (pmk_ops _ _ _ _ H) as (Hk & q & Hq & Hops). split; auto.
    assert (HG : Forall2 (one_gal mu) (pm_ops d) lg). { clear - EL HR Hsolve Hj Hn Hr Hm HV HW Hclose HP HPi. induction EL as [|o og l lg Ho EL IH]; constructor; [|apply IH; apply Forall_cons_iff in HR; tauto]. apply pop_gal; auto. apply Forall_cons_iff in HR; tauto. }
    assert (HG2 := one_gal_sync mu _ _ q HG Hq). rewrite <- Hops in HG2. clear Hops HG EL lg Hq H.
    split. { clear - HG2. induction HG2 as [|o og l lg (A & _) HG IH]; cbn; congruence. }
    assert (HE : exists es es', snd (peval_ops (pm_ops d) mu) = Ok es /\ snd (peval_ops (pm_ops dg) mu) = Ok es' /\ Forall (sized n m) es /\ Forall (sized r m) es' /\
       Forall2 (fun e e' => mo_cls e = mo_cls e' /\ agrees e e') es es' /\ existsb takes_input es = existsb ptakes (pm_ops d) /\ existsb takes_input es' = existsb ptakes (pm_ops d)).
    { clear - HG2. induction HG2 as [|o og l lg H HG IH]; [exists [], []; cbn; auto 9|]. destruct IH as (es & es' & A1 & A2 & A3 & A4 & A5 & A6 & A7). destruct H as (_ & _ & _ & e & e' & B1 & B2 & B3 & B4 & B5 & B6 & B7).
      exists (e :: es), (e' :: es'). cbn [peval_ops]. destruct (pop_eval o mu) as [o1 x1]. destruct (pop_eval og mu) as [o2 x2]. cbn in B1, B2. subst x1 x2.
      destruct (peval_ops l mu) as [l1 y1]. destruct (peval_ops lg mu) as [l2 y2]. cbn in A1, A2. subst y1 y2. cbn. split; auto. split; auto. split; [constructor; auto|]. split; [constructor; auto|].
      split; [constructor; auto; split; auto; congruence|]. unfold takes_input at 1 3, ptakes at 1 3. rewrite B5, B6, A6, A7. auto. }
    destruct HE as (es & es' & A1 & A2 & A3 & A4 & A5 & A6 & A7).
    assert (Hne' : pm_ops dg <> []) by (inversion HG2; congruence).
    destruct (pevaluate_sized n m d mu es Hn Hne A1 A3) as (e & E1 & E2 & E3 & E4 & E5 & E6). destruct (pevaluate_sized r m dg mu es' Hr Hne' A2 A4) as (e' & F1 & F2 & F3 & F4 & F5 & F6).
    exists e, e'. split; auto. split; auto. split; auto. split; auto. intros eg Heg qv u Hq Hu.
    unfold galerkin_model in Heg. rewrite E2 in Heg. destruct (mapM _ es) as [gl|] eqn:EG; [|discriminate]. cbn [bind] in Heg. apply mapM_Forall2 in EG.
    assert (HS : Forall (sized r m) gl /\ map mo_cls gl = map mo_cls es').
    { clear - EG A3 A5 Hsolve Hj Hn Hr Hm HV HW Hclose. revert es' A5. induction EG as [|o g es gl Ho EG IH]; intros es' A5; inversion A5; subst; [split; constructor|]. apply Forall_cons_iff in A3. destruct A3 as [(x & Ex & Hc & Hw) A3].
      rewrite Ex in Ho. destruct (galerkin solve junk x Vr Wr) as [gx|] eqn:Eg; [|discriminate]. cbn in Ho. injection Ho as <-.
      destruct (galerkin_commutes solve junk n r m x Vr Wr Hsolve Hj Hn Hr Hm Hw HV HW Hclose gx Eg) as [Hg _]. destruct (IH A3 _ H3) as [I1 I2]. split.
      - constructor; auto. exists gx. cbn. split; auto. split; auto. rewrite <- Hc. apply (galerkin_cls _ _ _ _ _ _ Eg).
      - cbn. destruct H1 as [H1 _]. congruence. }
    destruct HS as [HS Hcl].
    assert (Hgne : gl <> []). { intros ->. destruct es' as [|? ?]; [|discriminate]. inversion A5; subst. destruct (pm_ops d); [congruence|]. cbn in A1. destruct (pop_eval _ _) as [? [?|]]; [|discriminate]. destruct (peval_ops _ _) as [? [?|]]; discriminate. }
    rewrite (mk_model_sized _ _ r m) in Heg; auto. injection Heg as <-.
    assert (HVu : exists v, is_vec m v /\ (existsb ptakes (pm_ops d) = true -> option_map V u = Some (V v))).
    { unfold pinput_for in Hu. destruct (existsb ptakes (pm_ops d)); [destruct (Hu eq_refl) as (v & -> & Hv); exists v; auto|]. exists (repeat 0%R m). split; [apply repeat_length|discriminate]. }
    destruct HVu as (v & Hv & Hin).
    assert (Hin1 : forall o, In o es' -> takes_input o = true -> option_map V u = Some (V v)). { intros o Ho Ht. apply Hin. rewrite <- A7. apply existsb_exists. eauto. }
    assert (Hin2 : forall o, In o gl -> takes_input o = true -> option_map V u = Some (V v)).
    { intros o Ho Ht. assert (K : In (mo_cls o) (map mo_cls es')) by (rewrite <- Hcl; apply in_map; auto). apply in_map_iff in K. destruct K as (o' & K1 & K2). apply (Hin1 o' K2). unfold takes_input in *. congruence. }
    destruct (rhs_value r m e' qv v (option_map V u) Hr Hm) as (w1 & W1 & W2 & W3); auto. { rewrite F2; auto. } { rewrite F2; auto. }
    match goal with |- _ = rhs ?g _ _ => destruct (rhs_value r m g qv v (option_map V u) Hr Hm) as (w2 & W4 & W5 & W6); auto end.
    rewrite W1, W4. do 2 f_equal. apply (vec_ext r); auto. intros i Hi. rewrite W3, W6 by auto. rewrite F2. cbn [m_ops]. f_equal.
    clear - A3 A4 A5 EG HS Hr Hm Hq Hv. revert es' A4 A5. induction EG as [|o g es gl Ho EG IH]; intros es' A4 A5; inversion A5; subst; auto. cbn [map].
    apply Forall_cons_iff in A3. destruct A3 as [(x & Ex & Hc & Hw) A3]. apply Forall_cons_iff in A4. destruct A4 as [S4 A4]. apply Forall_cons_iff in HS. destruct HS as [S5 HS]. f_equal; [|apply IH; auto].
    rewrite Ex in Ho. destruct (galerkin solve junk x Vr Wr) as [gx|] eqn:Eg; [|discriminate]. cbn in Ho. injection Ho as <-.
    destruct H1 as [_ Hag]. destruct (Hag x gx Ex Eg) as (x' & Ex' & Happ). specialize (Happ qv v Hq Hv).
    destruct (op_apply_vec r m _ qv v (Some (V v)) Hr Hm S4 Hq Hv (fun _ => eq_refl)) as (y1 & Y1 & _ & Y2).
    destruct (op_apply_vec r m _ qv v (Some (V v)) Hr Hm S5 Hq Hv (fun _ => eq_refl)) as (y2 & Y3 & _ & Y4).
    unfold op_apply in Y1, Y3. rewrite Ex' in Y1. cbn in Y3. rewrite Happ in Y1. rewrite Y1 in Y3. injection Y3 as ->. rewrite <- Y2, <- Y4. reflexivity. Qed.
End ModelGal.

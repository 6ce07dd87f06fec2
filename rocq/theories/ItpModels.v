(* ItpModels.v -- _from_models(): interpolating existing models. *)
From Verif Require Import LinAlg MatAlg OpsProofs GalProofs EntriesProofs MonoVals MonoRhs MonoInv MonoLists MonoHist ParaVals ParaBest ParaFinal.
From Verif Require Export ItpFinal SpecPara.
#[local] Open Scope nat_scope.

Definition dop : mop := {| mo_cls := CConst; mo_ent := None |}.
Definition ent (o : mop) : op := match mo_ent o with Some e => e | None => OConst [] end.

Lemma check_operators_ents c l : Forall (fun o => mo_cls o = c /\ mo_ent o <> None) l -> l = map (as_mop c) (map ent l).
Proof. induction 1 as [|o l [H1 H2] HF IH]; cbn; auto. f_equal; auto. unfold as_mop, ent. destruct o as [c' [e|]]; cbn in *; congruence. Qed.
Lemma same_classes_ok l cs : same_classes l cs = true <-> map mo_cls l = cs.
Proof. revert cs. induction l as [|o l IH]; intros [|c cs]; cbn; split; intros H; try discriminate; auto.
  - apply andb_true_iff in H. destruct H as [H1 H2]. apply cls_eqb_eq in H1. apply IH in H2. congruence.
  - injection H as H1 H2. apply andb_true_iff. split; [apply cls_eqb_eq; auto|apply IH; auto]. Qed.

Section FromModels.
  Variables (X : pext) (r m p : nat) (cs : list cls) (ds : list model) (ps : list pval) (ic : option iclass) (k : kind).
  Hypotheses (Hr : 0 < r) (HA : aligned r m cs ds) (HL : length ds = length ps) (Hne : ps <> []) (Hcs : cs <> []).
  Hypothesis Hq : ~ In (CPoly Quartic) cs.

  (* what has to be known of the interpolator class *)
  Definition good (c : cls) (ops : list op) (t : itp) : Prop := i_cls t = c /\ i_entries t = Some ops /\ i_pdim t = Some p /\
    (forall i, i < length ps -> i_evaluate t (nth i ps (PS 0)) = Ok (nth i ops (OConst []))) /\
    (forall C, ic = Some C -> i_set_interp (px_cubic X) (px_linnd X) t (Some C) = (t, Ok tt)).
  Hypothesis Hgood : forall c ops, family r m c ops -> length ops = length ps -> exists t, i_from_operators X c ps (map (as_mop c) ops) ic = Ok t /\ good c ops t.

  Lemma fm_check : check_models cs ds = Ok tt.
  Proof. clear HL. unfold aligned in HA. induction HA as [|d ds' (H1 & H2 & _) HF IH]; auto. cbn. replace (length (m_ops d) =? length cs) with true by (symmetry; apply Nat.eqb_eq; rewrite <- H1, map_length; auto).
    replace (same_classes (m_ops d) cs) with true by (symmetry; apply same_classes_ok; auto). cbn [negb]. rewrite H2. cbn [bind]. apply IH. exact HF. Qed.

  Definition ops_of (ell : nat) : list op := map (fun d => ent (nth ell (m_ops d) dop)) ds.
  Lemma fm_nth ell : ell < length cs -> nth_ops ell ds = Ok (map (as_mop (nth ell cs CConst)) (ops_of ell)) /\ family r m (nth ell cs CConst) (ops_of ell) /\ length (ops_of ell) = length ps.
  Proof. intros He. split; [|split].
    - unfold nth_ops, ops_of. rewrite map_map. apply mapM_ok. intros d Hd. unfold aligned in HA. rewrite Forall_forall in HA. destruct (HA d Hd) as (H1 & _ & H3).
      assert (Hl : ell < length (m_ops d)) by (rewrite <- (map_length mo_cls (m_ops d)), H1; auto). unfold nth_r. rewrite (nth_error_nth' _ dop Hl).
      rewrite Forall_forall in H3. destruct (H3 (nth ell (m_ops d) dop)) as (e & Ee & Hc & Hw); [apply nth_In; auto|]. f_equal.
      unfold as_mop, ent. rewrite Ee. rewrite <- H1. rewrite (nth_map_in mo_cls _ _ _ dop Hl). destruct (nth ell (m_ops d) dop); cbn in *; congruence.
    - unfold family, ops_of. apply Forall_forall. intros o Ho. apply in_map_iff in Ho. destruct Ho as (d & <- & Hd). unfold aligned in HA. rewrite Forall_forall in HA. destruct (HA d Hd) as (H1 & _ & H3).
      assert (Hl : ell < length (m_ops d)) by (rewrite <- (map_length mo_cls (m_ops d)), H1; auto). rewrite Forall_forall in H3. destruct (H3 (nth ell (m_ops d) dop)) as (e & Ee & Hc & Hw); [apply nth_In; auto|].
      unfold ent. rewrite Ee. split; auto. rewrite Hc, <- H1. rewrite (nth_map_in mo_cls _ _ _ dop Hl). reflexivity.
    - unfold ops_of. rewrite map_length. auto. Qed.

  Lemma fm_ops cs2 : forall pre, cs = pre ++ cs2 -> exists ts, interp_ops X ps ds ic (length pre) cs2 = Ok ts /\ length ts = length cs2 /\
    forall l, l < length cs2 -> good (nth l cs2 CConst) (ops_of (length pre + l)) (nth l ts (i_new CConst None)).
  Proof. induction cs2 as [|c cs2 IH]; intros pre E; [exists []; cbn; split; auto; split; auto; lia|].
    destruct (IH (pre ++ [c])) as (ts & E1 & E2 & E3). { rewrite <- app_assoc. auto. } rewrite app_length in E1, E3. cbn [length] in E1, E3. rewrite Nat.add_1_r in E1.
    assert (He : length pre < length cs) by (rewrite E, app_length; cbn; lia).
    assert (Hn : nth (length pre) cs CConst = c) by (rewrite E, app_nth2, Nat.sub_diag by lia; auto).
    destruct (fm_nth (length pre) He) as (N1 & N2 & N3). rewrite Hn in N1, N2. destruct (Hgood c _ N2 N3) as (t & T1 & T2).
    assert (Hic : interpolated_class c = Ok c). { destruct c as [| | [| |] | |]; auto. exfalso. apply Hq. rewrite E. apply in_app_iff. right. left. auto. }
    exists (t :: ts). cbn [interp_ops]. rewrite Hic. cbn [bind]. rewrite N1. cbn [bind]. rewrite T1. cbn [bind]. rewrite E1. cbn [bind]. split; auto. split; [cbn; auto|].
    intros [|l] Hl; cbn [nth]; [rewrite Nat.add_0_r; auto|]. cbn in Hl. replace (length pre + Datatypes.S l) with (length pre + 1 + l) by lia. apply E3. lia. Qed.

  Lemma somes_all {A} (f : A -> option nat) (a : nat) l : (forall x, In x l -> f x = Some a) -> somes (map f l) = map (fun _ => a) l.
  Proof. induction l; cbn; auto. intros H. rewrite H by auto. cbn. f_equal. apply IHl. intros; apply H; auto. Qed.
  Lemma one_of_const {A} (l : list A) a : l <> [] -> one_of (map (fun _ => a) l) = Ok (Some a).
  Proof. destruct l; [congruence|]. intros _. cbn. replace (forallb (Nat.eqb a) (map (fun _ => a) l)) with true; auto. symmetry. apply forallb_forall. intros x Hx. apply in_map_iff in Hx. destruct Hx as (_ & <- & _). apply Nat.eqb_refl. Qed.

  Lemma imk_trained l : l <> [] -> (forall o, In o l -> exists t e es, o = PItp t /\ i_entries t = Some (e :: es) /\ wf_op r m e /\ cls_of e = i_cls t /\ i_pdim t = Some p) ->
    exists d, imk_model k (map POp l) SNone = Ok d /\ pm_ops (im_base d) = l /\ pm_kind (im_base d) = k.
  Proof. intros Hl H. unfold imk_model. replace (forallb iparg_ok (map POp l)) with true.
    2:{ symmetry. apply forallb_forall. intros a Ha. apply in_map_iff in Ha. destruct Ha as (o & <- & Ho). destruct (H o Ho) as (t & e & es & -> & _). reflexivity. }
    cbn [negb]. assert (EM : mapM presolve (map POp l) = Ok l). { rewrite mapM_Forall2. clear. induction l; constructor; auto. }
    assert (EU : forall o, In o l -> puncal o = false). { intros o Ho. destruct (H o Ho) as (t & e & es & -> & He & _). unfold puncal. cbn. rewrite He. reflexivity. }
    assert (ER : pstate_dim l = Ok (Some r)). { unfold pstate_dim. rewrite (somes_all prows r). apply one_of_const; auto. intros o Ho. destruct (H o Ho) as (t & e & es & -> & He & Hw & _). unfold prows. cbn [pentries]. rewrite He. f_equal. apply (wf_rows r m); auto. }
    assert (EI : exists mm, pinput_dim l = Ok mm). { unfold pinput_dim. destruct (filter ptakes l) as [|o1 l1] eqn:EF; [eauto|]. rewrite <- EF. exists (Some m). rewrite (somes_all pinputs m). apply one_of_const. rewrite EF; discriminate.
      intros o Ho. apply filter_In in Ho. destruct Ho as [Ho Ht]. destruct (H o Ho) as (t & e & es & -> & He & Hw & Hc & _). unfold pinputs. cbn [pentries]. rewrite He. f_equal. apply (wf_inputs r); auto. unfold ptakes in Ht. cbn in Ht. rewrite Hc. auto. }
    destruct EI as [mm EI].
    assert (EP : one_of (somes (map pdim l)) = Ok (Some p)). { rewrite (somes_all pdim p). apply one_of_const; auto. intros o Ho. destruct (H o Ho) as (t & e & es & -> & _ & _ & _ & Hp). exact Hp. }
    assert (ED : duplicates (map pcls (filter puncal l)) = false). { replace (filter puncal l) with (@nil pop); auto. symmetry. clear - EU. induction l as [|o l IH]; auto. cbn. rewrite EU by (left; auto). apply IH. intros; apply EU; right; auto. }
    assert (EX : pindices puncal l = []). { unfold pindices. clear - EU. generalize (seq 0 (length l)). intros s. induction s as [|i s IH]; auto. cbn. destruct (nth_error l i) eqn:E; auto. rewrite EU; auto. eapply nth_error_In; eauto. }
    assert (ES : map (fun o => match pdim o with None => with_pdim p o | Some _ => o end) l = l). { rewrite <- (map_id l) at 2. apply map_ext_in. intros o Ho. destruct (H o Ho) as (t & e & es & -> & _ & _ & _ & Hp). cbn. rewrite Hp. reflexivity. }
    unfold pmk_model. destruct (map POp l) as [|z zs] eqn:Ez; [destruct l; [congruence|discriminate]|]. rewrite EM. cbn [bind]. rewrite ED, ER. cbn [bind]. rewrite EI. cbn [bind]. rewrite EX.
    unfold psync. cbn [pm_ops]. rewrite EP. cbn [pseq]. unfold pset_solver. cbn [pm_intrusive pw_p pw_ops length Nat.eqb bind pm_ops]. rewrite ES.
    eexists. split; [reflexivity|]. cbn. auto. Qed.

  Theorem from_models : exists d, i_from_models X k ps ds ic = Ok d /\ map pcls (pm_ops (im_base d)) = cs /\
    forall i, i < length ps -> exists e, snd (pevaluate (im_base d) (nth i ps (PS 0))) = Ok e /\ m_kind e = k /\
      forall d0, m_ops e = m_ops (nth i ds d0).
  Proof. destruct (fm_ops cs [] eq_refl) as (ts & E1 & E2 & E3). cbn [length Nat.add] in E1, E3. assert (Hps : 0 < length ps) by (destruct ps; [congruence|cbn; lia]).
    assert (HTS : forall o, In o (map PItp ts) -> exists t e es, o = PItp t /\ i_entries t = Some (e :: es) /\ wf_op r m e /\ cls_of e = i_cls t /\ i_pdim t = Some p).
    { intros o Ho. apply in_map_iff in Ho. destruct Ho as (t & <- & Ht). destruct (In_nth _ _ (i_new CConst None) Ht) as (l & Hl & El). rewrite E2 in Hl. destruct (E3 l Hl) as (G1 & G2 & G3 & _). rewrite El in G1, G2, G3.
      destruct (fm_nth l Hl) as (_ & F2 & F3). destruct (ops_of l) as [|e es]; [cbn in F3; lia|]. unfold family in F2. apply Forall_inv in F2. destruct F2 as [F4 F5]. exists t, e, es. repeat split; auto. congruence. }
    assert (Hts : map PItp ts <> []). { destruct ts; [|discriminate]. destruct cs; [congruence|discriminate]. }
    destruct (imk_trained (map PItp ts) Hts HTS) as (d & D1 & D2 & D3).
    assert (HS : iset_interp X ic d = Ok d).
    { unfold iset_interp. destruct ic as [C|] eqn:Eic; auto. rewrite (mapM_ok (set_interp_op X C) (fun o => o)).
      - rewrite map_id. cbn [bind]. destruct d as [b s q]. destruct b. reflexivity.
      - intros o Ho. rewrite D2 in Ho. apply in_map_iff in Ho. destruct Ho as (t & <- & Ht). destruct (In_nth _ _ (i_new CConst None) Ht) as (l & Hl & El). rewrite E2 in Hl. destruct (E3 l Hl) as (_ & _ & _ & _ & G). rewrite El in G.
        cbn. rewrite (G C Eic). reflexivity. }
    exists d. split; [|split].
    - assert (HU : i_from_models X k ps ds ic = do _ <- check_models cs ds; do ts <- interp_ops X ps ds ic 0 cs; do d <- imk_model k (map (fun t => POp (PItp t)) ts) SNone; iset_interp X ic d).
      { destruct ds as [|d0 ds'] eqn:Eds; [cbn in HL; lia|]. assert (Hd0 : map mo_cls (m_ops d0) = cs). { unfold aligned in HA. apply Forall_inv in HA. tauto. } unfold i_from_models. rewrite Hd0. reflexivity. }
      rewrite HU, fm_check. cbn [bind]. rewrite E1. cbn [bind].
      replace (map (fun t => POp (PItp t)) ts) with (map POp (map PItp ts)) by (rewrite map_map; auto). rewrite D1. cbn [bind]. exact HS.
    - rewrite D2, map_map. cbn [pcls]. apply (nth_ext _ _ CConst CConst). { rewrite map_length. auto. } intros l Hl. rewrite map_length in Hl. rewrite (nth_map_in _ _ _ _ (i_new CConst None) Hl).
      rewrite E2 in Hl. destruct (E3 l Hl) as (G1 & _). exact G1.
    - intros i Hi. set (mu := nth i ps (PS 0)). assert (Hdi : In (nth i ds (nth i ds {| m_kind := k; m_frozen := true; m_ops := []; m_infer := []; m_known := []; m_hasin := false; m_r := None; m_m := None; m_intrusive := true; m_solver := None |})) ds) by (apply nth_In; lia).
      set (di := nth i ds _) in Hdi. assert (Hdd : forall d0, nth i ds d0 = di) by (intros; apply nth_indep; lia). clearbody di.
      assert (HAi : map mo_cls (m_ops di) = cs /\ Forall (sized r m) (m_ops di)). { unfold aligned in HA. rewrite Forall_forall in HA. destruct (HA di Hdi) as (A1 & _ & A2). split; auto. }
      destruct HAi as [A1 A2].
      assert (HF : Forall2 (fun o e => snd (pop_eval o mu) = Ok e) (map PItp ts) (m_ops di)).
      { assert (Hlen : length ts = length (m_ops di)) by (rewrite E2, <- A1, map_length; auto).
        assert (HN : forall l, l < length ts -> snd (pop_eval (PItp (nth l ts (i_new CConst None))) mu) = Ok (nth l (m_ops di) dop)).
        { intros l Hl. assert (Hl' := Hl). rewrite E2 in Hl'. destruct (E3 l Hl') as (G1 & G2 & G3 & G4 & _). cbn [pop_eval snd]. unfold mu. rewrite G4 by auto. cbn [bind]. rewrite G1. f_equal.
          unfold ops_of. rewrite (nth_map_in _ _ _ _ di) by lia. rewrite (Hdd di). rewrite Hlen in Hl. rewrite Forall_forall in A2. destruct (A2 (nth l (m_ops di) dop)) as (e & Ee & _); [apply nth_In; auto|].
          unfold ent. rewrite Ee. rewrite <- A1, (nth_map_in mo_cls _ _ _ dop Hl). destruct (nth l (m_ops di) dop); cbn in *; congruence. }
        clear - Hlen HN. revert Hlen HN. generalize (m_ops di). clear di. induction ts as [|t ts IH]; intros [|o l] Hlen HN; try discriminate; constructor.
        - apply (HN 0). cbn; lia.
        - apply IH; [cbn in Hlen; lia|]. intros j Hjj. apply (HN (Datatypes.S j)). cbn; lia. }
      assert (HE : snd (peval_ops (pm_ops (im_base d)) mu) = Ok (m_ops di)).
      { rewrite D2. clear - HF. induction HF as [|o e l es H HF IH]; auto. cbn [peval_ops]. destruct (pop_eval o mu) as [o' x]. cbn in H. subst x. destruct (peval_ops l mu) as [l' y]. cbn in IH. subst y. reflexivity. }
      destruct (pevaluate_sized r m (im_base d) mu (m_ops di) Hr) as (e & F1 & F2 & F3 & _); auto. { rewrite D2. auto. }
      exists e. split; auto. split; [congruence|]. intros d0. rewrite Hdd. auto. Qed.
End FromModels.

Lemma good_user X r m p ps C : 0 < r -> points p ps -> interpolates C ps (PS 0) ->
  forall c ops, family r m c ops -> length ops = length ps -> exists t, i_from_operators X c ps (map (as_mop c) ops) (Some C) = Ok t /\ good X p ps (Some C) c ops t.
Proof. intros Hr HP HI c ops HF HL. destruct (from_operators_user X r m c p ps C ops Hr HF HP HL HI) as (t & E1 & E2 & E3 & E4). exists t. split; auto.
  destruct E3 as (He & _ & _ & Hp & _ & Hd & Hc & f & Hf & HC). split; auto. split; auto. split; auto. split; auto. intros C' [= <-]. unfold i_set_interp. rewrite He, Hp, HC. destruct t; cbn in *. congruence. Qed.
Lemma good_default X r m xs : (forall xs, 2 <= length xs -> strictly_inc xs -> interpolates (px_cubic X) (map PS xs) (PS 0)) ->
  0 < r -> NoDup xs -> 2 <= length xs ->
  forall c ops, family r m c ops -> length ops = length (map PS xs) -> exists t, i_from_operators X c (map PS xs) (map (as_mop c) ops) None = Ok t /\ good X 1 (map PS xs) None c ops t.
Proof. intros HC Hr HN H2 c ops HF HL. rewrite map_length in HL. unfold i_from_operators. rewrite check_operators_ok. cbn [bind].
  destruct (i_init_default (px_cubic X) (px_linnd X) HC r m c xs ops Hr HF HN H2 HL) as (t & E1 & E2 & E3 & E4 & E5 & E6 & E7). exists t. split; auto.
  split; auto. split; auto. split; auto. split; [|discriminate]. intros i Hi. rewrite map_length in Hi. rewrite <- (E7 i Hi). f_equal. apply (map_nth PS xs 0%R). Qed.

Lemma from_models_user X r m p cs ds ps C k : 0 < r -> aligned r m cs ds -> length ds = length ps -> points p ps -> cs <> [] ->
  ~ In (CPoly Quartic) cs -> interpolates C ps (PS 0) ->
  exists d, i_from_models X k ps ds (Some C) = Ok d /\ map pcls (pm_ops (im_base d)) = cs /\
    forall i, i < length ps -> exists e, snd (pevaluate (im_base d) (nth i ps (PS 0))) = Ok e /\ m_kind e = k /\ forall d0, m_ops e = m_ops (nth i ds d0).
Proof. intros Hr HA HL HP Hcs Hq HI. apply (from_models X r m p cs ds ps (Some C) k); auto. apply HP. apply (good_user X r m p ps C); auto. Qed.
Lemma from_models_default X r m cs ds xs k : (forall xs, 2 <= length xs -> strictly_inc xs -> interpolates (px_cubic X) (map PS xs) (PS 0)) ->
  0 < r -> aligned r m cs ds -> length ds = length xs -> NoDup xs -> 2 <= length xs -> cs <> [] -> ~ In (CPoly Quartic) cs ->
  exists d, i_from_models X k (map PS xs) ds None = Ok d /\ map pcls (pm_ops (im_base d)) = cs /\
    forall i, i < length xs -> exists e, snd (pevaluate (im_base d) (PS (vget xs i))) = Ok e /\ m_kind e = k /\ forall d0, m_ops e = m_ops (nth i ds d0).
Proof. intros HC Hr HA HL HN H2 Hcs Hq. assert (Hne : map PS xs <> []) by (destruct xs; [cbn in H2; lia|discriminate]).
  destruct (from_models X r m 1 cs ds (map PS xs) None k Hr HA) as (d & D1 & D2 & D3); auto. { rewrite map_length; auto. } { eapply good_default; eauto. }
  exists d. split; auto. split; auto. intros i Hi. destruct (D3 i) as (e & E); [rewrite map_length; auto|]. exists e. change (PS (vget xs i)) with (PS (nth i xs 0%R)). rewrite <- (map_nth PS xs 0%R). exact E. Qed.

(* the refusals *)
Lemma check_models_app r m cs pre l : aligned r m cs pre -> check_models cs (pre ++ l) = check_models cs l.
Proof. intros H. unfold aligned in H. induction H as [|d pre (H1 & H2 & _) HF IH]; auto. cbn. replace (length (m_ops d) =? length cs) with true by (symmetry; apply Nat.eqb_eq; rewrite <- H1, map_length; auto).
    replace (same_classes (m_ops d) cs) with true by (symmetry; apply same_classes_ok; auto). cbn [negb]. rewrite H2. cbn [bind]. exact IH. Qed.
Lemma from_models_misaligned X k ps r m cs pre d post ic : pre <> [] -> aligned r m cs pre ->
  (map mo_cls (m_ops d) <> cs -> i_from_models X k ps (pre ++ d :: post) ic = Err ValueError) /\
  (map mo_cls (m_ops d) = cs -> check_trained d = Err AttributeError -> i_from_models X k ps (pre ++ d :: post) ic = Err AttributeError).
Proof. intros Hne HA. assert (E : i_from_models X k ps (pre ++ d :: post) ic = do _ <- check_models cs (pre ++ d :: post); do ts <- interp_ops X ps (pre ++ d :: post) ic 0 cs;
      do d <- imk_model k (map (fun t => POp (PItp t)) ts) SNone; iset_interp X ic d).
  { destruct pre as [|p0 pre]; [congruence|]. unfold aligned in HA. apply Forall_inv in HA. destruct HA as (H1 & _). cbn [app i_from_models]. rewrite H1. reflexivity. }
  rewrite E, (check_models_app r m) by auto. cbn [check_models]. split.
  - intros H. destruct (Nat.eqb_spec (length (m_ops d)) (length cs)); cbn [negb]; auto. destruct (same_classes (m_ops d) cs) eqn:Es; auto. apply same_classes_ok in Es. congruence.
  - intros H1 H2. replace (length (m_ops d) =? length cs) with true by (symmetry; apply Nat.eqb_eq; rewrite <- H1, map_length; auto).
    replace (same_classes (m_ops d) cs) with true by (symmetry; apply same_classes_ok; auto). cbn [negb]. rewrite H2. reflexivity. Qed.
Lemma from_models_first X k ps d post ic : check_trained d = Err AttributeError -> i_from_models X k ps (d :: post) ic = Err AttributeError.
Proof. intros H. unfold i_from_models. cbn [check_models]. rewrite map_length, Nat.eqb_refl. cbn [negb]. replace (same_classes (m_ops d) (map mo_cls (m_ops d))) with true by (symmetry; apply same_classes_ok; auto).
  cbn [negb]. rewrite H. reflexivity. Qed.

(* ---- what copying and projecting keep of an affine operator --------------------------------------------------------- *)
Lemma aff_copy_same r m a : 0 < r -> (a_entries a = None \/ exists ops, affine_of r m a ops) -> aff_copy a = Ok a.
Proof.
  intros Hr [E|[ops [E [F [L P]]]]]; unfold aff_copy; rewrite E; [destruct a; cbn in *; now subst|].
  unfold aff_set, aff_terms. cbn [a_cls a_nterms]. rewrite (family_shapes r m (a_cls a)) by auto. rewrite map_length, L, Nat.eqb_refl.
  cbn [negb]. rewrite (family_construct r m) by auto. cbn [bind]. destruct a; cbn in *; now subst.
Qed.
Lemma pop_galerkin_affine X solve junk a Vr Wr o : pop_galerkin X solve junk (PAff a) Vr Wr = Ok o ->
  exists b, o = PAff b /\ a_cls b = a_cls a /\ a_theta b = a_theta a /\ a_nterms b = a_nterms a /\
    (a_entries a = None -> b = a) /\ (a_entries a <> None -> a_pdim b = None /\ a_entries b <> None).
Proof.
  unfold pop_galerkin, puncal. cbn [pentries]. destruct (a_entries a) as [ops|] eqn:E.
  - unfold aff_galerkin. rewrite E. destruct (mapM _ ops) as [gs|]; cbn [bind]; [|discriminate]. unfold aff_set. destruct (aff_terms _ _ _) as [os|]; cbn [bind]; [|discriminate].
    intros [= <-]. eexists. split; [reflexivity|]. cbn. repeat split; auto; discriminate.
  - unfold aff_copy. rewrite E. cbn [bind]. intros [= <-]. eexists. split; [reflexivity|]. cbn. repeat split; auto; try congruence. intros _. destruct a; cbn in *; now subst.
Qed.

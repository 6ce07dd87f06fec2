(* SaveBasis.v -- proofs of C46 for bases. *)
From Coq Require Import String ZArith Lia Lra.
From Verif Require Import LinAlg MatAlg BasisProofs PodRank PodFinal PodHist.
From Verif Require Export SaveTf.
#[local] Open Scope string_scope.
#[local] Open Scope nat_scope.
#[local] Open Scope list_scope.

Lemma named_ok nm : nm <> Some "" -> named nm = nm.
Proof. unfold named. destruct nm as [s|]; auto. intros H. destruct (String.eqb s "") eqn:E; auto. apply String.eqb_eq in E. congruence. Qed.
Lemma lb_back b : new_lb b -> checkable b -> exists g, writes (lb_events b) g /\ lb_load g = Ok b.
Proof.
  intros [HN [ck HI]] [w HC].
  assert (E : lb_init (lb_entries b) (lb_weights b) true (lb_name b) = Ok b).
  { unfold lb_init in *. rewrite HC. cbn [bind]. destruct ck; [rewrite HC in HI; exact HI|exact HI]. }
  unfold lb_events. rewrite (named_ok _ HN). unfold lb_load. destruct b as [A W n r nm]; cbn [lb_name lb_weights lb_entries] in *.
  destruct nm as [s|], W as [[v|m]|]; (eexists; split; [do 2 eexists; split; reflexivity|]); cbn -[lb_init]; exact E.
Qed.

Lemma sort_normal s : normal_svals s -> normalized s = Ok s.
Proof.
  intros [D H]. unfold normalized. rewrite sort_id by auto. destruct s as [|x t]; [unfold vget in H; simpl in H; lra|].
  unfold vget in H. simpl in H. subst x. destruct (Req_EM_T 1 0); [lra|]. f_equal. rewrite <- (map_id (1%R :: t)) at 2.
  apply map_ext. intros a. lra.
Qed.
Lemma crit_back c : crit_args (crit_name c) (crit_dset c) = Ok (match c with CNum z => by_num z | CSval e => by_sval e | CCum e => by_cum e | CRes e => by_res e | CProj e => by_proj e end).
Proof. destruct c; reflexivity. Qed.
Definition args_of c := match c with CNum z => by_num z | CSval e => by_sval e | CCum e => by_cum e | CRes e => by_res e | CProj e => by_proj e end.
Lemma args_pick c : pick (args_of c) = Ok c. Proof. destruct c; reflexivity. Qed.
Lemma init_any X a c mx nm W p0 : pod_init X (by_num 1) None SDense W None = Ok p0 -> pick a = Ok c -> mx <> Some 0 ->
  pod_init X a (option_map Z.of_nat mx) SDense W nm = Ok (mkpod nm c false mx SDense W (p_sqrtw p0) None None None None None None None None).
Proof.
  unfold pod_init. intros H P N. rewrite P. cbn [bind pick by_num a_num] in *.
  assert (M : match option_map Z.of_nat mx with None => Ok None | Some z => if (z <=? 0)%Z then Err ValueError else Ok (Some (Z.to_nat z)) end = Ok mx).
  { destruct mx as [m|]; [|reflexivity]. cbn [option_map]. destruct (Z.of_nat m <=? 0)%Z eqn:Q; [apply Z.leb_le in Q; assert (m = 0) by lia; congruence|]. now rewrite Nat2Z.id. }
  rewrite M. cbn [bind]. match type of H with bind ?e _ = _ => destruct e as [sw|]; [|discriminate] end. cbn [bind] in *. inversion H; subst. reflexivity.
Qed.
(* re-dimensioning only looks at the criterion, the weights and the stored SVD *)
Lemma from_criterion_same p1 p2 q1 : p_crit p2 = p_crit p1 -> p_weights p2 = p_weights p1 -> p_left p2 = p_left p1 -> p_svals p2 = p_svals p1 ->
  from_criterion p1 = (q1, None) -> exists q2, from_criterion p2 = (q2, None) /\ p_cum q2 = p_cum q1 /\ p_res q2 = p_res q1 /\
   p_entries q2 = p_entries q1 /\ p_n q2 = p_n q1 /\ p_r q2 = p_r q1 /\ p_crit q2 = p_crit p2 /\ p_crit q1 = p_crit p1 /\ p_est q2 = p_est p2.
Proof.
  intros A B C D. unfold from_criterion. rewrite D. destruct (p_svals p1) as [s|] eqn:S1; [|discriminate]. destruct (Req_EM_T _ _) as [|NZ]; [discriminate|].
  rewrite A. unfold set_r. rewrite C, D, S1. destruct (p_left p1) as [L|]; [|discriminate]. cbv zeta. rewrite B. destruct (Req_EM_T _ _); [discriminate|].
  intros E. apply pair_equal_spec in E. destruct E as [<- E]. eexists. split; [rewrite E; reflexivity|]. cbn. repeat split; auto.
Qed.
Definition maxz (p : pod) := option_map Z.of_nat (p_max p).
(* what is written, and the way load() reads it *)
Lemma pod_written X maxv p L s Rt : p_left p = Some L -> p_svals p = Some s -> p_right p = Some Rt -> p_name p <> Some "" ->
  exists g, writes (pod_events p) g /\
    pod_load X maxv g =
      let r := option_map (Z.min (Z.of_nat (ncols L))) maxv in
      let ca := match r, p_crit p with Some z, CNum _ => by_num z | _, _ => args_of (p_crit p) end in
      let cut A := match r with Some z => cols_to z A | None => A end in
      from_svd X (cut L) s (Some (cut Rt)) ca (maxz p) (p_weights p) (p_name p).
Proof.
  intros HL HS HR HN. unfold pod_events. rewrite (named_ok _ HN), HL, HS, HR. destruct p as [nm c est mx sv W sw L0 s0 R0 cum rs E n r]; unfold maxz; cbn [p_name p_crit p_max p_weights] in *.
  destruct nm as [nm|], mx as [mx|], W as [[v|m]|]; (eexists; split; [do 2 eexists; split; reflexivity|]); unfold pod_load; cbn -[from_svd crit_args ncols];
   rewrite crit_back; destruct maxv, c; reflexivity.
Qed.
Lemma pod_ext p q : p_name p = p_name q -> p_crit p = p_crit q -> p_est p = p_est q -> p_max p = p_max q -> p_solver p = p_solver q -> p_weights p = p_weights q -> p_sqrtw p = p_sqrtw q -> p_left p = p_left q -> p_svals p = p_svals q -> p_right p = p_right q -> p_cum p = p_cum q -> p_res p = p_res q -> p_entries p = p_entries q -> p_n p = p_n q -> p_r p = p_r q -> p = q.
Proof. destruct p, q; cbn. intros; subst. reflexivity. Qed.
Lemma pod_back X p : fitted_pod X p -> exists g q, writes (pod_events p) g /\ pod_load X None g = Ok q /\ same_pod p q /\ p_solver q = SDense /\
  (forall p0, pod_init X (by_num 1) None SDense (p_weights p) None = Ok p0 -> p_solver p = SDense -> p_est p = false -> p_sqrtw p = p_sqrtw p0 -> q = p).
Proof.
  intros [HD [HR [[s [HS NS]] [HM [HN [p0 HW]]]]]]. destruct (dimensioned_inv _ _ _ HD) as [p1 [C1 F1]].
  destruct (from_criterion_keeps _ _ _ F1) as [K1 [K2 K3]]. pose proof (from_criterion_static _ _ _ F1) as ST. unfold static in ST.
  destruct (from_criterion_inv _ _ F1) as [s' [_ [_ [_ [_ G1]]]]]. destruct (p_right p) as [Rt|] eqn:R; [|congruence].
  assert (HL : exists L, p_left p = Some L).
  { rewrite K2. unfold from_criterion in F1. rewrite <- K1, HS in F1. destruct (Req_EM_T _ _); [discriminate|]. unfold set_r in F1. rewrite <- K1, HS in F1. destruct (p_left p1); [eauto|discriminate]. }
  destruct HL as [L HL]. destruct (pod_written X None p L s Rt HL HS R HN) as [g [Wg Lg]]. exists g.
  cbn in Lg. unfold from_svd in Lg. rewrite args_pick in Lg. unfold maxz in Lg. rewrite (init_any X _ (p_crit p) (p_max p) (p_name p) _ p0 HW (args_pick _) HM) in Lg. cbn [bind] in Lg.
  unfold store_svd in Lg. rewrite (sort_normal _ NS) in Lg. cbn [andthen] in Lg.
  set (pl := pod_with_svd L (Some s) (Some Rt) _) in *.
  destruct (from_criterion_same p1 pl p) as [q [Fq [Q1 [Q2 [Q3 [Q4 [Q5 [Q6 [Q7 Q8]]]]]]]]]; auto.
  { unfold pl. cbn. congruence. } { unfold pl. cbn. congruence. } { unfold pl. cbn. congruence. }
  rewrite Fq in Lg. exists q. split; [auto|]. split; [exact Lg|].
  destruct (from_criterion_keeps _ _ _ Fq) as [J1 [J2 J3]]. pose proof (from_criterion_static _ _ _ Fq) as SQ. unfold static in SQ. injection SQ as SQ1 SQ2 SQ3 SQ4 SQ5.
  unfold pl in *. cbn in J1, J2, J3, SQ1, SQ2, SQ3, SQ4, SQ5, Q6, Q8. split; [|split].
  - unfold same_pod. repeat split; congruence.
  - auto.
  - intros p0' HW' A B C. rewrite HW in HW'. inversion HW'; subst p0'. apply pod_ext; congruence.
Qed.
Lemma pod_new_back I X a mx sv W nm p q : nm <> Some "" -> pod_init X a mx sv W nm = Ok p -> pod_init X a mx SDense W nm = Ok q ->
  comes_back I (SvBasis (BPod p)) (pod_load X None) q.
Proof.
  intros HN H1 H2.
  assert (HP : p_name p = nm /\ p_left p = None /\ p_weights p = W /\ (exists c, pick a = Ok c /\ p_crit p = c) /\ maxz p = mx).
  { unfold pod_init in H1. destruct (pick a) as [c|]; [|discriminate]. cbn [bind] in H1. destruct mx as [z|].
    - destruct (z <=? 0)%Z eqn:Q; [discriminate|]. cbn [bind] in H1. match type of H1 with bind ?e _ = _ => destruct e as [sw|]; [|discriminate] end. cbn in H1.
      inversion H1; subst; cbn. repeat split; eauto. unfold maxz; cbn. rewrite Z2Nat.id; auto. apply Z.leb_gt in Q. lia.
    - cbn [bind] in H1. match type of H1 with bind ?e _ = _ => destruct e as [sw|]; [|discriminate] end. cbn in H1. inversion H1; subst; cbn. repeat split; eauto. }
  destruct HP as [P1 [P2 [P3 [[c [P4 P5]] P6]]]].
  assert (E : pod_init X (args_of (p_crit p)) (maxz p) SDense (p_weights p) (p_name p) = Ok q).
  { rewrite P1, P3, P6, P5. unfold pod_init in *. now rewrite args_pick, P4 in *. }
  eapply comes_back_w with (g := ltac:(clear; exact (match wexecs (pod_events p) None ([], []) with ((a, l), _, _) => Grp a l end))).
  all: unfold events_of, b_events, pod_events, pod_load, maxz in *; rewrite named_ok, P2 by congruence; clear -E;
    destruct p as [nm c est mx sv W sw L0 s0 R0 cum rs En n r]; cbn [p_name p_crit p_max p_weights] in *.
  - destruct nm as [nm|], mx as [mx|], W as [[v|m]|]; (do 2 eexists; split; reflexivity).
  - destruct nm as [nm|], mx as [mx|], W as [[v|m]|]; cbn -[pod_init crit_args]; rewrite crit_back; exact E.
Qed.
Lemma linear_back I b : new_lb b -> checkable b -> comes_back I (SvBasis (BLin b)) lb_load b.
Proof. intros H1 H2. destruct (lb_back b H1 H2) as [g [W L]]. eapply comes_back_w; eauto. Qed.
Lemma fitted_back I X p : fitted_pod X p -> exists q, comes_back I (SvBasis (BPod p)) (pod_load X None) q /\ same_pod p q /\ p_solver q = SDense.
Proof. intros H. destruct (pod_back X p H) as [g [q [W [L [S1 [S2 _]]]]]]. exists q. split; [|auto]. eapply comes_back_w; eauto. Qed.
Lemma fitted_dense_back I X p p0 : fitted_pod X p -> pod_init X (by_num 1) None SDense (p_weights p) None = Ok p0 ->
  p_solver p = SDense -> p_est p = false -> p_sqrtw p = p_sqrtw p0 -> comes_back I (SvBasis (BPod p)) (pod_load X None) p.
Proof. intros H H0 A B C. destruct (pod_back X p H) as [g [q [W [L [S1 [S2 K]]]]]]. rewrite (K p0 H0 A B C) in L. eapply comes_back_w; eauto. Qed.
Lemma basis_good X b : good_basis X b -> exists g c, writes (b_events b) g /\ b_load X (b_class b) g = Ok c /\ same_basis b c /\ b_name c = b_name b.
Proof.
  destruct b as [l|p]; simpl.
  - intros [H1 H2]. destruct (lb_back l H1 H2) as [g [W L]]. exists g, (BLin l). rewrite L. auto.
  - intros H. destruct (pod_back X p H) as [g [q [W [L [S1 _]]]]]. exists g, (BPod q). rewrite L. repeat split; auto; apply S1.
Qed.
Lemma bmulti_back I X bs k : bs <> [] -> Forall (good_basis X) bs -> Forall (fun b => b_name b <> None) bs ->
  k = Each (map b_class bs) \/ (exists c, k = One c /\ Forall (fun b => b_class b = c) bs) ->
  exists cs, comes_back I (SvMulti bs) (bmulti_load X k) cs /\ Forall2 same_basis bs cs.
Proof.
  intros Hb HG HN HC.
  assert (K : exists cs, Forall2 (fun b c => exists g, writes (b_events b) g /\ b_load X (b_class b) g = Ok c /\ same_basis b c /\ b_name c = b_name b) bs cs).
  { clear -HG. induction HG as [|b t H _ IH]; [exists []; constructor|]. destruct IH as [cs IH]. destruct (basis_good X b H) as [g [c Hg]]. exists (c :: cs). constructor; eauto. }
  destruct K as [cs K]. exists cs. split; [|eapply F2_impl; [|exact K]; intros b c [g [_ [_ [? _]]]]; auto].
  assert (K2 : exists gs, Forall2 (fun b g => writes (b_events b) g) bs gs /\ Forall2 (fun bc g => b_load X (b_class (fst bc)) g = Ok (snd bc)) (combine bs cs) gs).
  { clear -K. induction K as [|b c bs cs [g [W [L _]]] _ IH]; [exists []; split; constructor|]. destruct IH as [gs [I1 I2]]. exists (g :: gs). split; constructor; auto. }
  destruct K2 as [gs [W L]].
  assert (LC : length cs = length bs) by (clear -K; induction K; simpl; auto).
  pose proof (egroups_writes (fun i => String.append "variable" (dec i)) b_events bs (name_dec "variable") gs 0 [] [("num_variables", Dset [] (DZ [Z.of_nat (length bs)]))] W (fun j _ => eq_refl)) as E.
  eapply comes_back_w.
  - do 2 eexists. split; [reflexivity|]. exact E.
  - set (g := Grp _ _). unfold bmulti_load, num_variables. replace (dset "num_variables" g) with (Ok (DZ [Z.of_nat (length bs)])) by reflexivity. cbn [bind as_ints head0].
    assert (KS : match k with One c => repeat c (Z.to_nat (Z.of_nat (length bs))) | Each ks => ks end = map b_class bs).
    { destruct HC as [->|[c [-> HF]]]; [auto|]. rewrite Nat2Z.id. clear -HF. induction HF; simpl; auto. now rewrite IHHF, H. }
    rewrite KS, map_length, Z.eqb_refl. cbn [negb bind].
    assert (EL : lgroups (fun i => String.append "variable" (dec i)) g 0 (map (b_load X) (map b_class bs)) = Ok cs).
    { replace (map (b_load X) (map b_class bs)) with (map (fun bc => b_load X (b_class (fst bc))) (combine bs cs)).
      - rewrite (lgroups_all _ g (combine bs cs) (fun bc => b_load X (b_class (fst bc))) snd gs [("num_variables", Dset [] (DZ [Z.of_nat (length bs)]))] []); auto.
        + f_equal. clear -LC. revert cs LC. induction bs; destruct cs; simpl; intros; try discriminate; auto. f_equal; auto.
        + apply (name_dec "variable").
        + unfold g. cbn [kids]. now rewrite app_nil_r.
      - clear -LC. revert cs LC. induction bs; destruct cs; simpl; intros; try discriminate; auto. f_equal; auto. }
    rewrite EL. cbn [bind]. unfold mk_bmulti. destruct (length cs =? 0) eqn:Q; [apply Nat.eqb_eq in Q; destruct bs; [congruence|simpl in *; lia]|]. cbn [bind]. f_equal.
    assert (NC : Forall (fun b => b_name b <> None) cs).
    { clear -K HN. induction K as [|b c bs cs [g [_ [_ [_ N]]]] _ IH]; constructor; inversion HN; subst; [congruence|auto]. }
    clear -NC. generalize 0. induction NC as [|c cs Hc _ IH]; intros i; simpl; [auto|]. rewrite IH. f_equal. unfold name_default. destruct (b_name c); [auto|congruence].
Qed.

(* ---- what does not come back ------------------------------------------------------------------------------------------------ *)
Lemma empty_name_back I A W b : lb_init A W true (Some "") = Ok b -> exists b', comes_back I (SvBasis (BLin b)) lb_load b' /\ lb_name b' = None.
Proof.
  intros H. assert (E : exists b', lb_init A W true None = Ok b' /\ lb_name b' = None).
  { unfold lb_init in *. match type of H with bind ?e _ = _ => destruct e; [|discriminate] end. cbn [bind]. eexists; split; [reflexivity|]. reflexivity. }
  destruct E as [b' [E N]]. exists b'. split; auto.
  assert (B : lb_entries b = A /\ lb_weights b = W /\ lb_name b = Some "").
  { unfold lb_init in H. match type of H with bind ?e _ = _ => destruct e; [|discriminate] end. cbn [bind] in H. inversion H; auto. }
  destruct B as [B1 [B2 B3]]. eapply comes_back_w with (g := ltac:(clear; exact (match wexecs (lb_events b) None ([], []) with ((a, l), _, _) => Grp a l end))).
  all: cbn [events_of b_events]; unfold lb_events, lb_load; rewrite B1, B2, B3; destruct W as [[v|m]|].
  1-3: do 2 eexists; split; reflexivity.
  all: cbn -[lb_init]; exact E.
Qed.
(* the rank assigned by the user is not saved *)
Lemma writes_det evs g g' : writes evs g -> writes evs g' -> g = g'.
Proof. intros [a [l [-> E]]] [a' [l' [-> E']]]. rewrite E in E'. now inversion E'. Qed.
Lemma rank_forgotten I X p z p' : fitted_pod X p -> set_r z p = (p', None) -> exists q, comes_back I (SvBasis (BPod p')) (pod_load X None) q /\ p_r q = p_r p.
Proof.
  intros H E. assert (H0 := H). destruct H0 as [HD [HR [[s [HS NS]] [HM [HN [p0 HW]]]]]].
  destruct (pod_back X p H) as [g [q [Wq [Lq [Sq _]]]]].
  destruct (set_r_keeps _ _ _ _ E) as (K1 & K2 & K3 & K4 & _ & _ & K5 & K6 & _).
  pose proof (set_r_crit z p p' None ltac:(congruence) E) as KC.
  destruct (p_right p) as [Rt|] eqn:R; [|congruence].
  assert (HL : exists L, p_left p = Some L) by (unfold set_r in E; rewrite HS in E; destruct (p_left p); [eauto|discriminate]).
  destruct HL as [L HL].
  destruct (pod_written X None p L s Rt HL HS R HN) as [g1 [W1 L1]].
  destruct (pod_written X None p' L s Rt) as [g2 [W2 L2]]; try congruence.
  exists q. split; [|apply Sq]. eapply comes_back_w; [exact W2|]. rewrite L2. unfold maxz. rewrite KC, K4, K5, K6. cbn [option_map].
  rewrite (writes_det _ _ _ Wq W1), L1 in Lq. exact Lq.
Qed.
(* load(file, max_vectors=m) *)
Lemma max_back I X p L n k m : fitted_pod X p -> p_left p = Some L -> is_mat n k L -> 0 < n -> ok_weight n (p_weights p) -> m <= k ->
  (forall z, p_crit p = CNum z -> (0 <= z)%Z) ->
  exists q, comes_back I (SvBasis (BPod p)) (pod_load X (Some (Z.of_nat m))) q /\ p_left q = Some (map (firstn m) L) /\
    (exists r, r <= m /\ keeps q r) /\ (forall z, p_crit p = CNum z -> p_r q = Some (Z.of_nat m)).
Proof.
  intros H HL HM Hn HW Hm HC. assert (H0 := H). destruct H0 as [HD [HR [[s [HS NS]] [HX [HN [p0 HW0]]]]]].
  destruct (p_right p) as [Rt|] eqn:R; [|congruence].
  destruct (pod_written X (Some (Z.of_nat m)) p L s Rt HL HS R HN) as [g [Wg Lg]].
  pose proof (ncols_is_mat n k L HM Hn) as Hk. cbv zeta in Lg. cbn [option_map] in Lg. rewrite Hk in Lg.
  replace (Z.min (Z.of_nat k) (Z.of_nat m)) with (Z.of_nat m) in Lg by lia.
  assert (CT : forall A, cols_to (Z.of_nat m) A = map (firstn m) A).
  { intros A. unfold cols_to. apply map_ext. intros row. rewrite py_slice_to by lia. now rewrite Nat2Z.id. }
  rewrite !CT in Lg. set (c := match p_crit p with CNum _ => CNum (Z.of_nat m) | c => c end).
  replace (match p_crit p with CNum _ => by_num (Z.of_nat m) | _ => args_of (p_crit p) end) with (args_of c) in Lg by (unfold c; destruct (p_crit p); reflexivity).
  assert (HC' : forall z, c = CNum z -> (0 <= z)%Z) by (unfold c; destruct (p_crit p); intros z E; inversion E; lia).
  assert (HM' : is_mat n m (map (firstn m) L)) by (apply (is_mat_firstn n k); auto).
  assert (HT : tot2 s <> 0%R) by (apply (normalized_tot s); apply sort_normal; auto).
  assert (EQ : exists q, pod_load X (Some (Z.of_nat m)) g = Ok q /\ stores q s n m /\ dimensioned X c q /\ p_left q = Some (map (firstn m) L)).
  { rewrite Lg. unfold from_svd. rewrite args_pick. unfold maxz. rewrite (init_any X _ c (p_max p) (p_name p) _ p0 HW0 (args_pick _) HX). cbn [bind]. unfold store_svd. rewrite (sort_normal _ NS). cbn [andthen].
    set (pl := pod_with_svd _ _ _ _). assert (E : exists q, from_criterion pl = (q, None) /\ p_svals q = Some s /\ p_left q = Some (map (firstn m) L)).
    { unfold from_criterion. replace (p_svals pl) with (Some s) by reflexivity. rewrite lsum_sqv. destruct (Req_EM_T (tot2 s) 0); [contradiction|].
      replace (p_crit pl) with c by reflexivity. destruct (set_r_ok (rank_of c s) pl s (map (firstn m) L) n m eq_refl eq_refl HM' Hn HW (rank_nonneg _ _ HC') HT) as [q E].
      exists q. split; auto. destruct (set_r_keeps _ _ _ _ E) as (K1 & K2 & _). rewrite K1, K2. auto. }
    destruct E as [q [E [E1 E2]]]. rewrite E. exists q. split; auto. split; [exists (map (firstn m) L); auto|]. split; auto.
    right. right. exists (map (firstn m) L), s, (Some (map (firstn m) Rt)), (args_of c), (option_map Z.of_nat (p_max p)), (p_weights p), (p_name p).
    split; [apply args_pick|]. unfold from_svd. rewrite args_pick. rewrite (init_any X _ c (p_max p) (p_name p) _ p0 HW0 (args_pick _) HX). cbn [bind]. unfold store_svd. rewrite (sort_normal _ NS). cbn [andthen].
    fold pl. now rewrite E. }
  destruct EQ as [q [E1 [E2 [E3 E4]]]]. exists q. split; [eapply comes_back_w; eauto|]. split; auto.
  destruct (dimensioned_keeps X c q s n m E3 E2 HC') as [_ [K _]]. split.
  - eexists. split; [|exact K]. lia.
  - intros z Hz. destruct K as [L' [_ [K _]]]. rewrite K. unfold c. rewrite Hz. cbn [rank_of]. rewrite Nat2Z.id. f_equal. f_equal. lia.
Qed.
Lemma pod_not_saved I p : p_left p <> None -> p_svals p = None \/ p_right p = None -> cannot_be_saved I (SvBasis (BPod p)).
Proof.
  intros H1 H2. destruct (wexecs (events_of I (SvBasis (BPod p))) None ([], [])) as [[g s] k] eqn:E. eapply not_saved_from; [exact E|]. intros ->. revert E.
  cbn [events_of b_events]. unfold pod_events. destruct (p_left p) as [L|]; [|congruence]. destruct (named (p_name p)), (p_max p), (p_weights p), (p_svals p), (p_right p);
   simpl; try discriminate; destruct H2; discriminate.
Qed.

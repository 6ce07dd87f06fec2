(* PodHist.v -- proofs about histories of operations on a PODBasis. *)
From Coq Require Import ZArith Lia Lra List.
From Verif Require Import LinAlg MatAlg BasisProofs PodRank PodFinal.
From Verif Require Export SpecBasis.
#[local] Open Scope nat_scope.

Definition static (p : pod) := (p_name p, p_max p, p_solver p, p_weights p, p_sqrtw p).
Lemma set_r_static z p q e : set_r z p = (q, e) -> static q = static p.
Proof. intros E. unfold static. destruct (set_r_keeps _ _ _ _ E) as (_ & _ & _ & -> & -> & -> & -> & -> & _). reflexivity. Qed.
Lemma set_r_crit z p q e : p_svals p <> None -> set_r z p = (q, e) -> p_crit q = p_crit p.
Proof.
  intros Hs. unfold set_r. destruct (p_svals p); [|contradiction]. destruct (p_left p); cbv zeta. destruct (Req_EM_T _ _).
  all: intros E; apply pair_equal_spec in E; destruct E as [<- _]; reflexivity.
Qed.
Lemma from_criterion_static p q e : from_criterion p = (q, e) -> static q = static p.
Proof. unfold from_criterion. destruct (p_svals p); [destruct (Req_EM_T _ _)|]; intros E; try (apply pair_equal_spec in E; destruct E as [<- _]; reflexivity). now apply set_r_static in E. Qed.
Lemma from_criterion_crit p q e : from_criterion p = (q, e) -> p_crit q = p_crit p.
Proof. unfold from_criterion. destruct (p_svals p) eqn:Es; [destruct (Req_EM_T _ _)|]; intros E; try (apply pair_equal_spec in E; destruct E as [<- _]; reflexivity). apply set_r_crit in E; auto. rewrite Es. discriminate. Qed.
Lemma from_criterion_keeps p q e : from_criterion p = (q, e) -> p_svals q = p_svals p /\ p_left q = p_left p /\ p_right q = p_right p.
Proof.
  unfold from_criterion. destruct (p_svals p) eqn:Es; [destruct (Req_EM_T _ _)|]; intros E; try (apply pair_equal_spec in E; destruct E as [<- _]; rewrite ?Es; auto).
  destruct (set_r_keeps _ _ _ _ E) as (K1 & K2 & K3 & _). rewrite K1, Es. auto.
Qed.
Lemma set_dimension_keeps a p q e : set_dimension a p = (q, e) -> p_svals q = p_svals p /\ p_left q = p_left p /\ p_right q = p_right p.
Proof.
  unfold set_dimension. destruct (pick a); [|intros E; apply pair_equal_spec in E; destruct E as [<- _]; auto]. destruct (p_svals p) eqn:Es; cbv zeta; intros E.
  - apply from_criterion_keeps in E. cbn [p_svals p_left p_right pod_with_crit] in E. now rewrite Es in E.
  - apply pair_equal_spec in E. destruct E as [<- _]. cbn [p_svals p_left p_right pod_with_crit]. rewrite Es. auto.
Qed.
(* re-dimensioning never touches the stored SVD, whether it returns or raises *)
Lemma C14_svd_fixed X o p q e : is_fit o = false -> pod_step X o p = (q, e) -> p_svals q = p_svals p /\ p_left q = p_left p /\ p_right q = p_right p.
Proof.
  destruct o; cbn [is_fit pod_step]; intros Hf E; [discriminate| |].
  - now apply set_dimension_keeps in E.
  - destruct (set_r_keeps _ _ _ _ E) as (K1 & K2 & K3 & _). auto.
Qed.
(* set_dimension() with no argument raises and changes nothing *)
Lemma C14_no_argument X p : set_dimension {| a_num := None; a_sval := None; a_cum := None; a_res := None; a_proj := None |} p = (p, Some ValueError) /\
  forall a, pick a = Err ValueError -> pod_step X (ODim a) p = (p, Some ValueError).
Proof. split; [reflexivity|]. intros a E. cbn. unfold set_dimension. now rewrite E. Qed.

(* the result of set_r on a fitted object is determined by the stored SVD, the configuration and the request *)
Definition svd_part (p : pod) := (p_est p, p_left p, p_svals p, p_right p).
Lemma set_r_det z p1 p2 q1 q2 : static p1 = static p2 -> svd_part p1 = svd_part p2 -> p_svals p1 <> None ->
  set_r z p1 = (q1, None) -> set_r z p2 = (q2, None) -> pod_with_crit (p_crit q2) q1 = q2.
Proof.
  intros Hst Hsv Hn E1 E2. injection Hst as Ha Hb Hc Hd He. injection Hsv as Hf Hg Hh Hi.
  unfold set_r in E1, E2. rewrite <- Hh, <- Hg in E2. destruct (p_svals p1) as [s|] eqn:HS; [|contradiction]. destruct (p_left p1) as [L|] eqn:HL; [|discriminate].
  cbv zeta in E1, E2. destruct (Req_EM_T _ _); [discriminate|]. apply pair_equal_spec in E1. destruct E1 as [<- _]. apply pair_equal_spec in E2. destruct E2 as [<- _].
  unfold pod_with_entries, pod_with_crit, pod_with_r. cbn. congruence.
Qed.
Lemma from_criterion_det p1 p2 q1 q2 : static p1 = static p2 -> svd_part p1 = svd_part p2 -> p_crit p1 = p_crit p2 ->
  from_criterion p1 = (q1, None) -> from_criterion p2 = (q2, None) -> q1 = q2.
Proof.
  intros Hst Hsv Hc E1 E2. pose proof (from_criterion_crit _ _ _ E1) as C1. pose proof (from_criterion_crit _ _ _ E2) as C2.
  destruct (from_criterion_inv _ _ E1) as (s1 & F1 & _ & _ & _ & G1). destruct (from_criterion_inv _ _ E2) as (s2 & F2 & _ & _ & _ & G2).
  assert (s1 = s2). { injection Hsv as _ _ H _. congruence. } subst s2. rewrite Hc in G1.
  pose proof (set_r_det _ _ _ _ _ Hst Hsv ltac:(congruence) G1 G2) as D. rewrite <- D. rewrite C2, <- Hc, <- C1. now destruct q1.
Qed.
Lemma fit_det X st p1 p2 q1 q2 : static p1 = static p2 -> p_crit p1 = p_crit p2 -> pod_fit X st p1 = (q1, None) -> pod_fit X st p2 = (q2, None) -> q1 = q2.
Proof.
  intros Hst Hc E1 E2. unfold pod_fit in E1, E2. destruct (snap_mat st) as [Q|]; [|discriminate]. cbv zeta in E1, E2.
  assert (Hm : p_max p1 = p_max p2) by (injection Hst; auto). assert (Hs : p_solver p1 = p_solver p2) by (injection Hst; auto).
  assert (Hv : forall k Q, pod_svd X p1 k Q = pod_svd X p2 k Q). { intros k Q'. unfold pod_svd, engine. injection Hst as _ _ -> -> ->. reflexivity. }
  rewrite Hm, Hs, Hv in E1. set (keep := match p_max p2 with None => _ | Some _ => _ end) in *. destruct (pod_svd X p2 keep Q) as [[[L s] Rt]|]; [|discriminate].
  apply andthen_inv in E1. destruct E1 as (x1 & A1 & B1). apply andthen_inv in E2. destruct E2 as (x2 & A2 & B2).
  apply store_svd_inv in A1. destruct A1 as (s1 & N1 & ->). apply store_svd_inv in A2. destruct A2 as (s2 & N2 & ->). assert (s1 = s2) by congruence. subst s2.
  eapply from_criterion_det; [| | |exact B1|exact B2].
  - injection Hst as Ha Hb Hd He Hf. unfold static. cbn. congruence.
  - reflexivity.
  - exact Hc.
Qed.

(* ---- the invariant -------------------------------------------------------------------------------------------- *)
Lemma step_static X o p q : pod_step X o p = (q, None) -> static q = static p.
Proof.
  destruct o; cbn [pod_step]; intros E.
  - unfold pod_fit in E. destruct (snap_mat st) as [Q|]; [|discriminate]. cbv zeta in E. destruct (pod_svd _ _ _ _) as [[[L s] Rt]|]; [|discriminate].
    apply andthen_inv in E. destruct E as (x & A & B). apply store_svd_inv in A. destruct A as (s' & _ & ->). apply from_criterion_static in B. rewrite B. reflexivity.
  - unfold set_dimension in E. destruct (pick a) as [c|]; [|discriminate]. destruct (p_svals p).
    + apply from_criterion_static in E. rewrite E. reflexivity.
    + injection E as <-. reflexivity.
  - now apply set_r_static in E.
Qed.
Lemma run_static X os : forall p q, pod_run X os p = Some q -> static q = static p.
Proof.
  induction os as [|o os IH]; cbn [pod_run]; intros p q E. { now injection E as <-. } destruct (pod_step X o p) as [p1 [e|]] eqn:Eo; [discriminate|].
  rewrite (IH _ _ E). now apply step_static in Eo.
Qed.
Lemma run_app X os1 os2 p q : pod_run X (os1 ++ os2) p = Some q -> exists p1, pod_run X os1 p = Some p1 /\ pod_run X os2 p1 = Some q.
Proof.
  revert p. induction os1 as [|o os1 IH]; cbn [app pod_run]; intros p E. { eauto. } destruct (pod_step X o p) as [p1 [e|]]; [discriminate|]. auto.
Qed.
(* what holds of an object that was never fitted *)
Definition fresh (p : pod) : Prop := p_svals p = None /\ p_left p = None /\ p_entries p = None /\ p_cum p = None /\ p_res p = None.
Definition good (p : pod) : Prop := exists s n m r, stores p s n m /\ vget s 0 = 1%R /\ keeps p r /\ p_cum p = Some (kept s r) /\ p_res p = Some (1 - kept s r)%R /\
  (forall k, p_max p = Some k -> m <= k).
Definition crit_nonneg (c : crit) : Prop := match c with CNum z => (0 <= z)%Z | _ => True end.
Lemma crit_nonneg_z c : crit_nonneg c -> forall z, c = CNum z -> (0 <= z)%Z. Proof. intros H z ->. exact H. Qed.
Lemma stores_tot p s n m : stores p s n m -> vget s 0 = 1%R -> tot2 s <> 0%R.
Proof. intros _ H. apply tot2_first. { intros ->. cbn in H. lra. } rewrite H. lra. Qed.
Lemma set_r_good z p s n m q : stores p s n m -> vget s 0 = 1%R -> (forall k, p_max p = Some k -> m <= k) -> (0 <= z)%Z -> set_r z p = (q, None) -> good q.
Proof.
  intros Hst H1 Hm Hz E. pose proof (stores_tot p s n m Hst H1) as Ht. destruct Hst as (L & Hs & HL & HLm & Hn).
  pose proof (ncols_is_mat n m L HLm Hn) as Hnc. pose proof (is_mat_len _ _ _ HLm) as Hlen.
  destruct (set_r_fitted z p s L Hs HL Hz ltac:(lia) q None E Ht) as (F1 & F2 & F3 & F4 & F5 & F6 & F7 & F8 & F9 & F10 & F11 & F12 & F13 & _). rewrite Hnc in *.
  exists s, n, m, (Nat.min (Z.to_nat z) m). repeat split; auto.
  - exists L. auto.
  - exists L. repeat split; auto. { apply F8. exact (proj2 HLm). } { rewrite Hnc. lia. }
  - intros k. rewrite F13. apply Hm.
Qed.
Lemma mcols_is_mat n m k A : is_mat n m A -> is_mat n (Nat.min k m) (mcols 0 k A).
Proof.
  intros [H1 H2]. unfold mcols. split. { now rewrite map_length. } apply Forall_forall. intros row Hin. apply in_map_iff in Hin. destruct Hin as (x & <- & Hx).
  rewrite Forall_forall in H2. specialize (H2 x Hx). unfold slice. cbn [skipn]. rewrite Nat.sub_0_r, firstn_length. lia.
Qed.
Definition inv (p : pod) : Prop := (fresh p \/ good p) /\ crit_nonneg (p_crit p).
Lemma pick_nonneg a c : pick a = Ok c -> nonneg_args a -> crit_nonneg c.
Proof. unfold pick, nonneg_args. destruct (a_num a), (a_sval a), (a_cum a), (a_res a), (a_proj a); intros E H; try discriminate; injection E as <-; exact H || exact I. Qed.
Lemma rectangular_static X p q : static p = static q -> rectangular X p -> rectangular X q.
Proof. intros Hst H n k keep Q L s Rt HQ Hn Hk E. apply (H n k keep Q L s Rt HQ Hn Hk). rewrite <- E. unfold pod_svd, engine. injection Hst as _ _ -> -> ->. reflexivity. Qed.
Lemma step_inv X o p q : rectangular X p -> proper_op o -> inv p -> pod_step X o p = (q, None) -> inv q /\ (is_fit o = true \/ good p -> good q).
Proof.
  intros HR Ho [Hp Hc] E. destruct o as [st|a|z]; cbn [pod_step is_fit proper_op] in *.
  - destruct Ho as (Q & n & k & HQ & HQm & Hn & Hk). unfold pod_fit in E. rewrite HQ in E. cbv zeta in E. set (keep := match p_max p with None => _ | Some _ => _ end) in E.
    destruct (pod_svd X p keep Q) as [[[L s] Rt]|] eqn:Ev; [|discriminate]. destruct (HR _ _ _ _ _ _ _ HQm Hn Hk Ev) as (m & HL).
    apply andthen_inv in E. destruct E as (x & A & B). apply store_svd_inv in A. destruct A as (s' & Ns & ->).
    destruct (normalized_spec s s' Ns) as (_ & _ & _ & H1 & _). pose proof (from_criterion_crit _ _ _ B) as Cq.
    destruct (from_criterion_inv _ _ B) as (s1 & F1 & _ & _ & _ & G). cbn [p_svals pod_with_svd] in F1. injection F1 as <-. cbn [p_crit pod_with_svd pod_with_est] in *.
    assert (good q); [|split; auto; split; auto; now rewrite Cq].
    eapply set_r_good; [|exact H1| |apply (rank_nonneg (p_crit p) s'), crit_nonneg_z; auto|exact G].
    + exists (mcols 0 keep L). split; [reflexivity|]. split; [reflexivity|]. split; [exact (mcols_is_mat n m keep L HL)|exact Hn].
    + cbn. intros k1 Ek. unfold keep. rewrite Ek. lia.
  - unfold set_dimension in E. destruct (pick a) as [c|] eqn:Ep; [|discriminate]. pose proof (pick_nonneg a c Ep Ho) as Hcn. destruct (p_svals p) as [s|] eqn:Es.
    + assert (Hg : good p). { destruct Hp as [[F _]|]; auto. congruence. } pose proof (from_criterion_crit _ _ _ E) as Cq. cbn [p_crit pod_with_crit] in Cq.
      assert (good q); [|split; [split; [auto|now rewrite Cq]|auto]].
      destruct Hg as (s1 & n & m & r & Hst & H1 & _ & _ & _ & Hm). destruct (from_criterion_inv _ _ E) as (s2 & F1 & _ & _ & _ & G). cbn [p_crit pod_with_crit] in G.
      eapply set_r_good; [|exact H1| |apply (rank_nonneg c s2), crit_nonneg_z; auto|exact G].
      * exact Hst.
      * exact Hm.
    + injection E as <-. assert (Hf : fresh p). { destruct Hp as [|(s1 & n & m & r & (L & A1 & _) & _)]; auto. congruence. }
      split; [split; [left; exact Hf|exact Hcn]|]. intros [|(s1 & n & m & r & (L & A1 & _) & _)]; [discriminate|congruence].
  - destruct (p_svals p) as [s|] eqn:Es.
    + assert (Hg : good p). { destruct Hp as [[F _]|]; auto. congruence. }
      assert (good q). { destruct Hg as (s1 & n & m & r & Hst & H1 & _ & _ & _ & Hm). eapply set_r_good; eauto. }
      split; [split; [auto|]|auto]. rewrite (set_r_crit z p q None); auto. rewrite Es. discriminate.
    + unfold set_r in E. rewrite Es in E. injection E as <-. assert (Hf : fresh p). { destruct Hp as [|(s1 & n & m & r & (L & A1 & _) & _)]; auto. congruence. }
      split; [split; [left; exact Hf|exact Ho]|]. intros [|(s1 & n & m & r & (L & A1 & _) & _)]; [discriminate|congruence].
Qed.
Lemma run_inv X os : forall p q, rectangular X p -> Forall proper_op os -> inv p -> pod_run X os p = Some q -> inv q /\ (existsb is_fit os = true \/ good p -> good q).
Proof.
  induction os as [|o os IH]; cbn [pod_run existsb]; intros p q HR Ho Hp E. { injection E as <-. split; auto. intros [|]; [discriminate|auto]. }
  inversion Ho; subst. destruct (pod_step X o p) as [p1 [e|]] eqn:Eo; [discriminate|]. destruct (step_inv X o p p1 HR) as [I1 G1]; auto.
  destruct (IH p1 q) as [I2 G2]; auto. { eapply rectangular_static; [|exact HR]. symmetry. now apply step_static in Eo. }
  split; auto. intros [H|H]; apply G2; auto. apply Bool.orb_true_iff in H. destruct H; auto.
Qed.
Lemma pod_init_fresh X a mx sv W nm p : pod_init X a mx sv W nm = Ok p -> fresh p /\ pick a = Ok (p_crit p) /\ p_max p = option_map Z.to_nat mx /\ p_r p = None.
Proof.
  unfold pod_init. destruct (pick a) as [c|] eqn:Ec; [|discriminate]. cbn [bind]. destruct (match mx with None => _ | Some z => _ end) as [mx'|] eqn:Em; [|discriminate]. cbn [bind].
  destruct (match W with Some _ => _ | None => _ end) as [sw|]; [|discriminate]. cbn [bind]. intros E. injection E as <-. cbn. repeat split; auto.
  destruct mx as [z|]; [|now injection Em as <-]. destruct (z <=? 0)%Z; [discriminate|]. now injection Em as <-.
Qed.
Lemma C14_prefix X a mx sv W nm p0 os q : pod_init X a mx sv W nm = Ok p0 -> rectangular X p0 -> nonneg_args a -> Forall proper_op os -> existsb is_fit os = true -> pod_run X os p0 = Some q ->
  exists s n m r, stores q s n m /\ vget s 0 = 1%R /\ keeps q r /\ r <= m /\ (forall k, mx = Some k -> (Z.of_nat m <= k)%Z) /\
                  p_cum q = Some (kept s r) /\ p_res q = Some (1 - kept s r)%R.
Proof.
  intros E HR Ha Ho Hf Er. destruct (pod_init_fresh _ _ _ _ _ _ _ E) as (F & Hc & Hm & _). destruct (run_inv X os p0 q HR Ho) as [_ G]; auto.
  { split; auto. eapply pick_nonneg; eauto. } destruct (G (or_introl Hf)) as (s & n & m & r & A1 & A2 & A3 & A4 & A5 & A6). exists s, n, m, r.
  split; [auto|]. split; [auto|]. split; [auto|]. split.
  { destruct A3 as (L & B1 & _ & B2 & _). destruct A1 as (L' & _ & C1 & C2 & C3). rewrite B1 in C1. injection C1 as <-. now rewrite (ncols_is_mat _ _ _ C2 C3) in B2. }
  split; [|auto]. intros k ->. assert (Hs : p_max q = p_max p0). { apply run_static in Er. injection Er; auto. }
  specialize (A6 (Z.to_nat k)). rewrite Hs, Hm in A6. specialize (A6 eq_refl).
  unfold pod_init in E. rewrite Hc in E. cbn [bind] in E. destruct (Z.leb_spec k 0); [discriminate|]. lia.
Qed.
Lemma C14_unfitted X a mx sv W nm p0 os q : pod_init X a mx sv W nm = Ok p0 -> existsb is_fit os = false -> pod_run X os p0 = Some q ->
  p_entries q = None /\ p_svals q = None /\ p_cum q = None /\ p_res q = None.
Proof.
  intros E Hf. destruct (pod_init_fresh _ _ _ _ _ _ _ E) as (F & _). clear E. revert p0 F Hf. induction os as [|o os IH]; cbn [pod_run existsb]; intros p F Hf E.
  { injection E as <-. destruct F as (F1 & F2 & F3 & F4 & F5). auto. }
  apply Bool.orb_false_iff in Hf. destruct Hf as [H1 H2]. destruct (pod_step X o p) as [p1 [e|]] eqn:Eo; [discriminate|]. apply (IH p1); auto.
  destruct F as (F1 & F2 & F3 & F4 & F5). destruct o; cbn [is_fit pod_step] in *; [discriminate| |].
  - unfold set_dimension in Eo. destruct (pick a0); [|discriminate]. rewrite F1 in Eo. injection Eo as <-. repeat split; auto.
  - unfold set_r in Eo. rewrite F1 in Eo. injection Eo as <-. repeat split; auto.
Qed.

(* ---- dependence on the last fit and the last request -------------------------------------------------------- *)
Lemma nofit_svd X g : forall p q, existsb is_fit g = false -> pod_run X g p = Some q -> static q = static p /\ (p_svals p <> None -> svd_part q = svd_part p).
Proof.
  induction g as [|o g IH]; cbn [pod_run existsb]; intros p q Hf E. { injection E as <-. auto. }
  apply Bool.orb_false_iff in Hf. destruct Hf as [H1 H2]. destruct (pod_step X o p) as [p1 [e|]] eqn:Eo; [discriminate|]. pose proof (step_static _ _ _ _ Eo) as S1.
  destruct (IH p1 q H2 E) as [S2 S3]. split; [congruence|]. intros Hs. destruct (C14_svd_fixed X o p p1 None H1 Eo) as (K1 & K2 & K3).
  rewrite S3 by congruence. unfold svd_part. rewrite K1, K2, K3. cut (p_est p1 = p_est p); [intros ->; reflexivity|].
  destruct o; cbn [pod_step is_fit] in *; [discriminate| |].
  - unfold set_dimension in Eo. destruct (pick a); [|discriminate]. destruct (p_svals p) eqn:Es; [|contradiction]. destruct (from_criterion_inv _ _ Eo) as (s & _ & _ & _ & _ & G). destruct (set_r_keeps _ _ _ _ G) as (_ & _ & _ & _ & _ & _ & _ & _ & Z). exact Z.
  - destruct (set_r_keeps _ _ _ _ Eo) as (_ & _ & _ & _ & _ & _ & _ & _ & Z). exact Z.
Qed.
Lemma fit_svd X st p1 p2 q1 q2 : static p1 = static p2 -> pod_fit X st p1 = (q1, None) -> pod_fit X st p2 = (q2, None) -> svd_part q1 = svd_part q2 /\ p_svals q1 <> None.
Proof.
  intros Hst E1 E2. unfold pod_fit in E1, E2. destruct (snap_mat st) as [Q|]; [|discriminate]. cbv zeta in E1, E2.
  assert (Hm : p_max p1 = p_max p2) by (injection Hst; auto). assert (Hs : p_solver p1 = p_solver p2) by (injection Hst; auto).
  assert (Hv : forall k Q, pod_svd X p1 k Q = pod_svd X p2 k Q). { intros k Q'. unfold pod_svd, engine. injection Hst as _ _ -> -> ->. reflexivity. }
  rewrite Hm, Hs, Hv in E1. set (keep := match p_max p2 with None => _ | Some _ => _ end) in *. destruct (pod_svd X p2 keep Q) as [[[L s] Rt]|]; [|discriminate].
  apply andthen_inv in E1. destruct E1 as (x1 & A1 & B1). apply andthen_inv in E2. destruct E2 as (x2 & A2 & B2).
  apply store_svd_inv in A1. destruct A1 as (s1 & N1 & ->). apply store_svd_inv in A2. destruct A2 as (s2 & N2 & ->). assert (s1 = s2) by congruence. subst s2.
  destruct (from_criterion_inv _ _ B1) as (? & F1 & _ & _ & _ & G1). destruct (from_criterion_inv _ _ B2) as (? & F2 & _ & _ & _ & G2).
  destruct (set_r_keeps _ _ _ _ G1) as (K1 & K2 & K3 & _ & _ & _ & _ & _ & K4). destruct (set_r_keeps _ _ _ _ G2) as (J1 & J2 & J3 & _ & _ & _ & _ & _ & J4).
  unfold svd_part. rewrite K1, K2, K3, K4, J1, J2, J3, J4. cbn. split; [reflexivity|discriminate].
Qed.
Lemma C14_last X st g1 g2 h1 h2 o p0 q1 q2 : existsb is_fit g1 = false -> existsb is_fit g2 = false -> is_fit o = false ->
  pod_run X (h1 ++ [OFit st] ++ g1 ++ [o]) p0 = Some q1 -> pod_run X (h2 ++ [OFit st] ++ g2 ++ [o]) p0 = Some q2 -> same_but_crit q1 q2.
Proof.
  intros Hg1 Hg2 Ho E1 E2. apply run_app in E1. destruct E1 as (a1 & A1 & E1). apply run_app in E1. destruct E1 as (b1 & B1 & E1). apply run_app in E1. destruct E1 as (c1 & C1 & D1).
  apply run_app in E2. destruct E2 as (a2 & A2 & E2). apply run_app in E2. destruct E2 as (b2 & B2 & E2). apply run_app in E2. destruct E2 as (c2 & C2 & D2).
  apply run_static in A1. apply run_static in A2. cbn [pod_run pod_step] in B1, B2.
  destruct (pod_fit X st a1) as [x1 [|]] eqn:F1; [discriminate|]. injection B1 as ->. destruct (pod_fit X st a2) as [x2 [|]] eqn:F2; [discriminate|]. injection B2 as ->.
  destruct (fit_svd X st a1 a2 b1 b2 ltac:(congruence) F1 F2) as [Sv Sn]. assert (Sn2 : p_svals b2 <> None) by (injection Sv; congruence).
  pose proof (step_static X (OFit st) a1 b1 F1) as Sb1. pose proof (step_static X (OFit st) a2 b2 F2) as Sb2.
  destruct (nofit_svd X g1 b1 c1 Hg1 C1) as [U1 V1]. destruct (nofit_svd X g2 b2 c2 Hg2 C2) as [U2 V2]. specialize (V1 Sn). specialize (V2 Sn2).
  assert (Hst : static c1 = static c2) by congruence. assert (Hsv : svd_part c1 = svd_part c2) by congruence. assert (Hn : p_svals c1 <> None) by (injection V1; congruence).
  assert (Hn2 : p_svals c2 <> None) by (injection V2; congruence).
  cbn [pod_run] in D1, D2. destruct o as [st'|a|z]; cbn [pod_step is_fit] in *; [discriminate| |].
  - destruct (set_dimension a c1) as [y1 [|]] eqn:G1; [discriminate|]. injection D1 as ->. destruct (set_dimension a c2) as [y2 [|]] eqn:G2; [discriminate|]. injection D2 as ->.
    unfold set_dimension in G1, G2. destruct (pick a) as [c|]; [|discriminate]. destruct (p_svals c1); [|contradiction]. destruct (p_svals c2); [|contradiction].
    rewrite (from_criterion_det (pod_with_crit c c1) (pod_with_crit c c2) q1 q2 Hst Hsv eq_refl G1 G2). unfold same_but_crit. now destruct q2.
  - destruct (set_r z c1) as [y1 [|]] eqn:G1; [discriminate|]. injection D1 as ->. destruct (set_r z c2) as [y2 [|]] eqn:G2; [discriminate|]. injection D2 as ->.
    eapply set_r_det; eauto.
Qed.
Lemma fits_crit X g : forall p q, forallb is_fit g = true -> pod_run X g p = Some q -> p_crit q = p_crit p.
Proof.
  induction g as [|o g IH]; cbn [pod_run forallb]; intros p q Hf E. { now injection E as <-. } apply Bool.andb_true_iff in Hf. destruct Hf as [H1 H2].
  destruct (pod_step X o p) as [p1 [e|]] eqn:Eo; [discriminate|]. rewrite (IH p1 q H2 E). destruct o; cbn [is_fit pod_step] in *; try discriminate.
  unfold pod_fit in Eo. destruct (snap_mat st); [|discriminate]. cbv zeta in Eo. destruct (pod_svd _ _ _ _) as [[[L s] Rt]|]; [|discriminate].
  apply andthen_inv in Eo. destruct Eo as (x & A & B). apply store_svd_inv in A. destruct A as (s' & _ & ->). apply from_criterion_crit in B. exact B.
Qed.
Lemma C14_last_fit X st a f1 f2 h1 h2 p0 q1 q2 : forallb is_fit f1 = true -> forallb is_fit f2 = true ->
  pod_run X (h1 ++ [ODim a] ++ f1 ++ [OFit st]) p0 = Some q1 -> pod_run X (h2 ++ [ODim a] ++ f2 ++ [OFit st]) p0 = Some q2 -> q1 = q2.
Proof.
  intros Hf1 Hf2 E1 E2. apply run_app in E1. destruct E1 as (a1 & A1 & E1). apply run_app in E1. destruct E1 as (b1 & B1 & E1). apply run_app in E1. destruct E1 as (c1 & C1 & D1).
  apply run_app in E2. destruct E2 as (a2 & A2 & E2). apply run_app in E2. destruct E2 as (b2 & B2 & E2). apply run_app in E2. destruct E2 as (c2 & C2 & D2).
  pose proof (run_static _ _ _ _ A1). pose proof (run_static _ _ _ _ A2). pose proof (run_static _ _ _ _ B1). pose proof (run_static _ _ _ _ B2). pose proof (run_static _ _ _ _ C1). pose proof (run_static _ _ _ _ C2).
  apply fits_crit in C1; auto. apply fits_crit in C2; auto.
  assert (Hd : forall x y, pod_run X [ODim a] x = Some y -> pick a = Ok (p_crit y)).
  { intros x y E. cbn [pod_run pod_step] in E. destruct (set_dimension a x) as [y' [|]] eqn:G; [discriminate|]. injection E as ->. unfold set_dimension in G. destruct (pick a) as [c|]; [|discriminate].
    destruct (p_svals x). { apply from_criterion_crit in G. cbn in G. now rewrite G. } injection G as <-. reflexivity. }
  apply Hd in B1. apply Hd in B2. cbn [pod_run pod_step] in D1, D2. destruct (pod_fit X st c1) as [x1 [|]] eqn:F1; [discriminate|]. injection D1 as ->. destruct (pod_fit X st c2) as [x2 [|]] eqn:F2; [discriminate|]. injection D2 as ->.
  eapply fit_det; [| |exact F1|exact F2]; congruence.
Qed.

(* ---- fit() returns -------------------------------------------------------------------------------------------- *)
Definition keep_of (p : pod) (Q : mat) : nat := let rmax := Nat.min (nrows Q) (ncols Q) in match p_max p with None => rmax | Some m => Nat.min m rmax end.
Lemma fit_ok X st p Q L s Rt s' n m : snap_mat st = Ok Q -> pod_svd X p (keep_of p Q) Q = Ok (L, s, Rt) -> is_mat n m L -> 0 < n -> normalized s = Ok s' -> ok_weight n (p_weights p) -> crit_nonneg (p_crit p) ->
  exists q, pod_fit X st p = (q, None) /\ stores q s' n (Nat.min (keep_of p Q) m) /\ dimensioned X (p_crit p) q /\ p_left q = Some (mcols 0 (keep_of p Q) L).
Proof.
  intros Hq Hv HL Hn Hs HW Hc. assert (exists q, pod_fit X st p = (q, None) /\ stores q s' n (Nat.min (keep_of p Q) m) /\ p_left q = Some (mcols 0 (keep_of p Q) L)) as (q & E & S & EL).
  { unfold pod_fit. rewrite Hq. cbv zeta. fold (keep_of p Q). rewrite Hv. unfold store_svd. rewrite Hs. cbn [andthen]. unfold from_criterion. cbn [p_svals pod_with_svd]. rewrite lsum_sqv.
    destruct (Req_EM_T (tot2 s') 0) as [Z|Z]; [now apply normalized_tot in Hs|]. set (p1 := pod_with_svd _ _ _ _).
    pose proof (mcols_is_mat n m (keep_of p Q) L HL) as HM.
    destruct (set_r_ok (rank_of (p_crit p1) s') p1 s' _ n _ eq_refl eq_refl HM Hn HW (rank_nonneg _ _ (crit_nonneg_z (p_crit p1) Hc)) Z) as (q & Eq). rewrite Eq. exists q. split; auto.
    destruct (set_r_keeps _ _ _ _ Eq) as (K1 & K2 & _). split; [|exact K2]. exists (mcols 0 (keep_of p Q) L). rewrite K1, K2. auto. }
  exists q. repeat split; auto. left. exists p, st. auto.
Qed.
Definition noX : ext := {| x_svd := fun _ => Err OtherError; x_rsvd := fun _ _ => Err OtherError; x_eigh := fun _ => Err OtherError; x_sqrtm := fun _ => Err OtherError; x_chof := fun _ => Err OtherError; x_chos := fun _ _ => Err OtherError |}.
Definition svd2 (Q : mat) : res (mat * vec * mat) := Ok (Q, s2, Q).
Definition pod2 : pod := mkpod None (CNum 2) false None (SCustom svd2) None None None None None None None None None None.
Lemma keep2 p : p_max p = None -> keep_of p (eye 2) = 2. Proof. intros H. unfold keep_of. now rewrite H. Qed.
Lemma fit2 p : p_max p = None -> p_solver p = SCustom svd2 -> p_sqrtw p = None -> p_weights p = None -> crit_nonneg (p_crit p) ->
  exists q, pod_fit noX (S2 (eye 2)) p = (q, None) /\ stores q s2 2 2 /\ dimensioned noX (p_crit p) q /\ static q = static p /\ p_crit q = p_crit p.
Proof.
  intros H1 H2 H3 H4 H5. destruct (fit_ok noX (S2 (eye 2)) p (eye 2) (eye 2) s2 (eye 2) s2 2 2 eq_refl) as (q & E & S & D & _); auto.
  { unfold pod_svd, engine. rewrite H2, H3. reflexivity. } { apply is_mat_eye. } { apply s2_norm. } { now rewrite H4. }
  rewrite keep2 in S by auto. exists q. split; [auto|]. split; [exact S|]. split; [auto|]. split.
  - now apply (step_static noX (OFit (S2 (eye 2)))).
  - apply (fits_crit noX [OFit (S2 (eye 2))] p q eq_refl). cbn [pod_run pod_step]. now rewrite E.
Qed.
Lemma setr2 z p : (0 <= z)%Z -> p_weights p = None -> stores p s2 2 2 -> exists q, set_r z p = (q, None) /\ stores q s2 2 2 /\ keeps q (Nat.min (Z.to_nat z) 2) /\ static q = static p /\ p_crit q = p_crit p.
Proof.
  intros Hz HW Hst. pose proof (stores_tot p s2 2 2 Hst eq_refl) as Ht. destruct Hst as (L & Hs & HL & HLm & Hn). pose proof (ncols_is_mat 2 2 L HLm Hn) as Hnc.
  destruct (set_r_ok z p s2 L 2 2 Hs HL HLm Hn ltac:(now rewrite HW) Hz Ht) as (q & E). exists q. split; auto.
  destruct (set_r_fitted z p s2 L Hs HL Hz ltac:(rewrite (is_mat_len _ _ _ HLm); auto) q None E Ht) as (F1 & F2 & F3 & F4 & F5 & F6 & F7 & F8 & _). rewrite Hnc in *.
  split. { exists L. auto. } split. { exists L. split; auto. split. { apply F8, HLm. } split; [rewrite Hnc; lia|auto]. } split; [now apply set_r_static in E|auto].
Qed.
Lemma C14_pod2 : pod_init noX (by_num 2) None (SCustom svd2) None None = Ok pod2. Proof. reflexivity. Qed.
(* assigning reduced_state_dimension after fit() is forgotten by the next fit() *)
Lemma C14_assignment_forgotten_refuted : exists X p0 st q1 q2, pod_init X (by_num 2) None (SCustom svd2) None None = Ok p0 /\
  pod_run X [OFit st; OSetR 1] p0 = Some q1 /\ keeps q1 1 /\ pod_run X [OFit st; OSetR 1; OFit st] p0 = Some q2 /\ keeps q2 2.
Proof.
  destruct (fit2 pod2 eq_refl eq_refl eq_refl eq_refl) as (p1 & E1 & S1 & D1 & T1 & C1). { cbn; lia. }
  destruct (setr2 1 p1) as (q1 & E2 & S2' & K2 & T2 & C2); [lia|now injection T1|auto|].
  assert (T : static q1 = static pod2) by congruence. injection T as _ Ha Hb Hc Hd.
  destruct (fit2 q1) as (q2 & E3 & S3' & D3 & T3 & C3); auto. { rewrite C2, C1. cbn. lia. }
  exists noX, pod2, (S2 (eye 2)), q1, q2. cbn [pod_run pod_step]. rewrite E1, E2. cbn [pod_run pod_step]. rewrite E3. repeat split; auto.
  - pose proof (C13_num noX 2 q2 s2 2 2) as K. rewrite C2, C1 in D3. apply K; auto. lia.
Qed.
(* a fit() that raises can leave the old basis next to new singular vectors *)
Definition svd2z (Q : mat) : res (mat * vec * mat) := Ok (Q, (if Req_EM_T (mget Q 0 0) 0 then [] else s2), Q).
Definition pod2z : pod := mkpod None (CNum 2) false None (SCustom svd2z) None None None None None None None None None None.
Lemma C14_failed_fit_refuted : exists X sv p0 st st' p1 q, pod_init X (by_num 2) None sv None None = Ok p0 /\
  pod_run X [OFit st] p0 = Some p1 /\ keeps p1 2 /\ pod_step X (OFit st') p1 = (q, Some IndexError) /\ p_entries q = p_entries p1 /\ ~ exists r, keeps q r.
Proof.
  destruct (fit_ok noX (S2 (eye 2)) pod2z (eye 2) (eye 2) s2 (eye 2) s2 2 2 eq_refl) as (p1 & E & S & D & EL).
  { unfold pod_svd, engine. cbn [p_sqrtw pod2z p_solver]. unfold svd2z. destruct (Req_EM_T (mget (eye 2) 0 0) 0) as [Z|]; [unfold mget, vget in Z; cbn in Z; lra|reflexivity]. }
  { apply is_mat_eye. } { lia. } { apply s2_norm. } { exact I. } { cbn; lia. } rewrite keep2 in S by reflexivity.
  assert (K : keeps p1 2). { exact (C13_num noX 2 p1 s2 2 2 D S ltac:(lia)). }
  set (Z2 := [[0; 0]; [0; 0]]%R).
  assert (T : static p1 = static pod2z) by (now apply (step_static noX (OFit (S2 (eye 2))))). injection T as T1 T2 T3 T4 T5.
  assert (exists q, pod_step noX (OFit (S2 Z2)) p1 = (q, Some IndexError) /\ p_entries q = p_entries p1 /\ p_left q = Some (mcols 0 2 Z2)) as (q & E2 & En & El).
  { cbn [pod_step]. unfold pod_fit. cbn [snap_mat]. cbv zeta. fold (keep_of p1 Z2). replace (keep_of p1 Z2) with 2 by (unfold keep_of; rewrite T2; reflexivity).
    unfold pod_svd, engine. rewrite T5, T3. unfold svd2z. destruct (Req_EM_T (mget Z2 0 0) 0) as [_|N]; [|exfalso; apply N; reflexivity]. eexists. split; [reflexivity|]. split; reflexivity. }
  exists noX, (SCustom svd2z), pod2z, (S2 (eye 2)), (S2 Z2), p1, q. split; [reflexivity|]. split. { cbn [pod_run pod_step]. now rewrite E. } split; [auto|]. split; [auto|]. split; [auto|].
  intros (r & L & K1 & _ & _ & K4). rewrite El in K1. injection K1 as <-. rewrite En in K4. destruct K as (L1 & J1 & _ & _ & J4). rewrite EL in J1. injection J1 as <-. rewrite K4 in J4.
  destruct r as [|r]; cbn in J4; [discriminate|]. injection J4. intros. lra.
Qed.
(* a negative request: the energies are not those of the basis *)
Definition s3 : vec := [1; / 2; / 4]%R.
Definition svd3 (Q : mat) : res (mat * vec * mat) := Ok (Q, s3, Q).
Definition pod3 : pod := mkpod None (CNum 2) false (Some 2) (SCustom svd3) None None None None None None None None None None.
Lemma C14_negative_refuted : exists X sv p0 st q s L, pod_init X (by_num 2) (Some 2%Z) sv None None = Ok p0 /\ pod_run X [OFit st; OSetR (-1)] p0 = Some q /\
  p_svals q = Some s /\ p_left q = Some L /\ p_entries q = Some (map (firstn 1) L) /\ p_cum q = Some (kept s 2) /\ (kept s 1 < kept s 2)%R.
Proof.
  assert (Hd : decreasing s3). { intros i j Hij Hj. cbn in Hj. destruct i as [|[|[|i]]], j as [|[|[|j]]]; unfold vget; cbn; try lra; lia. }
  assert (Hn : normalized s3 = Ok s3). { unfold normalized. rewrite sort_id by auto. unfold s3. destruct (Req_EM_T 1 0); [lra|]. cbn. f_equal. f_equal; [field|]. f_equal; [field|]. f_equal. field. }
  destruct (fit_ok noX (S2 (eye 2)) pod3 (eye 2) (eye 2) s3 (eye 2) s3 2 2 eq_refl eq_refl (is_mat_eye 2) ltac:(lia) Hn I) as (p1 & E & S & D & EL). { cbn; lia. }
  replace (keep_of pod3 (eye 2)) with 2 in EL by reflexivity.
  destruct S as (L & Hs & HL & HLm & _). rewrite EL in HL. injection HL as <-.
  assert (T : static p1 = static pod3) by (now apply (step_static noX (OFit (S2 (eye 2))))). injection T as T1 T2 T3 T4 T5.
  assert (Ht : tot2 s3 <> 0%R) by (apply tot2_first; [discriminate|unfold vget; cbn; lra]).
  set (L := mcols 0 2 (eye 2)) in *. set (q := fst (set_r (-1) p1)).
  assert (Eq : set_r (-1) p1 = (q, None) /\ p_entries q = Some (map (firstn 1) L) /\ p_cum q = Some (kept s3 2) /\ p_svals q = Some s3 /\ p_left q = Some L).
  { unfold q, set_r. rewrite Hs, EL. cbv zeta. change (Z.of_nat (ncols L) <? -1)%Z with false. cbv iota. rewrite lsum_sqv. destruct (Req_EM_T (tot2 s3) 0); [contradiction|].
    rewrite T4. cbn [fst]. assert (Hc : cols_to (-1) L = map (firstn 1) L) by reflexivity. rewrite Hc.
    destruct (not_orthogonal_total 2 1 None (map (firstn 1) L) ltac:(lia)) as (w & Ew). { apply (is_mat_firstn 2 2); [exact HLm|lia]. } exact I.
    cbn [p_weights pod3]. rewrite Ew. split; [reflexivity|]. cbn [p_entries p_cum p_svals p_left pod_with_entries pod_with_r]. rewrite Hs. repeat split; auto. f_equal. unfold kept. f_equal. change (py_slice None (Some (-1)%Z) (sqv s3)) with (firstn 2 (sqv s3)). unfold s3, sqv. cbn [map firstn lsum bsum fold_right]. unfold vget, Rsqr; cbn [nth]. unfold lsum. cbn. ring. }
  destruct Eq as (Eq & A1 & A2 & A3 & A4). exists noX, (SCustom svd3), pod3, (S2 (eye 2)), q, s3, L. split; [reflexivity|]. split. { cbn [pod_run pod_step]. now rewrite E, Eq. }
  repeat split; auto. unfold kept. unfold Rdiv. apply Rmult_lt_compat_r. { apply Rinv_0_lt_compat. pose proof (tot2_nonneg s3). lra. } cbn. unfold vget, Rsqr; cbn. lra.
Qed.

(* PostFinal.v -- frobenius_error, Lp_error and projection_error (C50). *)
From Verif Require Export PostProofs.
#[local] Open Scope R_scope.

(* ---- frobenius_error ---- *)
Definition Lgrid (n k : nat) (f : nat * nat -> R) : R := bsum n (fun i => bsum k (fun j => f (i, j))).
Lemma pf_grid n k : positive_functional (grid n k) (Lgrid n k).
Proof.
  unfold Lgrid. split.
  - intros f g H. apply bsum_le. intros i Hi. apply bsum_le. intros j Hj. apply H. split; auto.
  - intros a b f g. rewrite <- !bsum_scal_l, <- bsum_plus. apply bsum_ext. intros i Hi. rewrite bsum_plus, !bsum_scal_l. reflexivity.
Qed.
Lemma def_grid n k : definite (grid n k) (Lgrid n k).
Proof.
  intros f H E [i j] [Hi Hj]. cbn in Hi, Hj. unfold Lgrid in E.
  assert (Z : bsum k (fun j => f (i, j)) = 0).
  { apply (bsum_nonneg_0 n (fun i => bsum k (fun j => f (i, j)))); auto. intros l Hl. apply bsum_nonneg. intros m Hm. apply H. split; auto. }
  apply (bsum_nonneg_0 k (fun j => f (i, j))); auto. intros m Hm. apply H. split; auto.
Qed.
Lemma rabs2 x : rpow (Rabs x) 2 = Rsqr x.
Proof. rewrite rpow_2 by apply Rabs_pos. unfold Rsqr. rewrite <- Rabs_mult. apply Rabs_right. apply Rle_ge, Rle_0_sqr. Qed.
Lemma fro_gnorm n k f e : gnorm (Fin 2) (grid n k) (Lgrid n k) f e <-> (0 <= e /\ e * e = bsum n (fun i => bsum k (fun j => Rsqr (f (i, j))))).
Proof.
  unfold gnorm, Lgrid. split; intros [H0 H]; split; auto.
  - rewrite rpow_2 in H by auto. rewrite H. apply bsum_ext. intros. apply bsum_ext. intros. apply rabs2.
  - rewrite rpow_2 by auto. rewrite H. apply bsum_ext. intros. apply bsum_ext. intros. symmetry. apply rabs2.
Qed.
Lemma norm2_ok n k Z : is_mat n k Z -> 0 <= norm2 (M Z) /\ norm2 (M Z) * norm2 (M Z) = sumsq n k Z.
Proof.
  intros HZ. cbn. assert (E : mnorm2 Z = sumsq n k Z) by (rewrite (mnorm2_bsum n k Z HZ); reflexivity).
  split; [apply sqrt_pos|]. rewrite sqrt_def; auto. rewrite E. unfold sumsq. apply bsum_nonneg. intros. apply bsum_nonneg. intros. apply Rle_0_sqr.
Qed.
Lemma sumsq_msub n k Q A : is_mat n k Q -> is_mat n k A -> sumsq n k (msub Q A) = gap2 n k Q A.
Proof. intros HQ HA. unfold sumsq, gap2. apply bsum_ext. intros. apply bsum_ext. intros. rewrite (mget_msub n k); auto. Qed.
Lemma frobenius_ok n k Q A : (0 < n)%nat -> is_mat n k Q -> is_mat n k A ->
  exists e d rel, frobenius_error (M Q) (M A) = Ok (e, rel) /\ 0 <= e /\ e * e = gap2 n k Q A /\ 0 <= d /\ d * d = sumsq n k Q /\ quotient e d rel.
Proof.
  intros Hn HQ HA. unfold frobenius_error. rewrite (shape_eq_ok n k) by auto. cbn [negb arrsub].
  destruct (norm2_ok n k Q HQ) as [D0 D1]. destruct (norm2_ok n k (msub Q A) (is_mat_msub n k Q A HQ HA)) as [E0 E1]. rewrite sumsq_msub in E1 by auto.
  exists (norm2 (M (msub Q A))), (norm2 (M Q)). eexists. split; [reflexivity|]. do 4 (split; [assumption|]). apply npdiv_quotient.
Qed.
Lemma frobenius_rejects Q A : shape_eq Q A = false \/ (exists v, Q = V v) -> frobenius_error Q A = Err ValueError.
Proof. intros H. unfold frobenius_error. destruct (shape_eq Q A); cbn; auto. destruct H as [H|[v ->]]; [discriminate|reflexivity]. Qed.

Lemma sq_inj x y : 0 <= x -> 0 <= y -> x * x = y * y -> x = y.
Proof. intros. nra. Qed.
Section Fro.
Variables (n k : nat).
Hypothesis (Hn : (0 < n)%nat).
Lemma fro_fact Q A e rel : is_mat n k Q -> is_mat n k A -> frobenius_error (M Q) (M A) = Ok (e, rel) ->
  gnorm (Fin 2) (grid n k) (Lgrid n k) (fun ij => mget Q (fst ij) (snd ij) - mget A (fst ij) (snd ij)) e.
Proof.
  intros HQ HA E. destruct (frobenius_ok n k Q A Hn HQ HA) as (e' & d & rel' & E' & H0 & H1 & _). rewrite E' in E. injection E as -> ->.
  apply fro_gnorm. auto.
Qed.
Lemma two_pos : pos_order (Fin 2). Proof. cbn. lra. Qed.
Lemma fro_zero Q A e rel : is_mat n k Q -> is_mat n k A -> frobenius_error (M Q) (M A) = Ok (e, rel) -> (e = 0 <-> Q = A).
Proof.
  intros HQ HA E. pose proof (fro_fact Q A e rel HQ HA E) as G. rewrite (gnorm_zero _ _ _ (pf_grid n k) two_pos _ _ (def_grid n k) G). split.
  - intros H. apply (mat_ext n k); auto. intros i j Hi Hj. specialize (H (i, j) (conj Hi Hj)). cbn in H. lra.
  - intros -> ij _. ring.
Qed.
Lemma fro_sym Q A e rel e' rel' : is_mat n k Q -> is_mat n k A -> frobenius_error (M Q) (M A) = Ok (e, rel) -> frobenius_error (M A) (M Q) = Ok (e', rel') -> e' = e.
Proof.
  intros HQ HA E E'. pose proof (fro_fact Q A e rel HQ HA E) as G. pose proof (fro_fact A Q e' rel' HA HQ E') as G'.
  apply (gnorm_unique (Fin 2) _ _ two_pos _ _ _ G'). revert G. apply (gnorm_abs _ _ _ (pf_grid n k)). intros. apply Rabs_minus_sym.
Qed.
Lemma fro_scale c Q A Q' A' e rel e' rel' : is_mat n k Q -> is_mat n k A -> times n k c Q Q' -> times n k c A A' ->
  frobenius_error (M Q) (M A) = Ok (e, rel) -> frobenius_error (M Q') (M A') = Ok (e', rel') -> e' = Rabs c * e /\ (c <> 0 -> rel' = rel).
Proof.
  intros HQ HA [HQ' GQ] [HA' GA] E E'. destruct (frobenius_ok n k Q A Hn HQ HA) as (e1 & d & r1 & E1 & H0 & H1 & D0 & D1 & Hq). rewrite E in E1. injection E1 as <- <-.
  destruct (frobenius_ok n k Q' A' Hn HQ' HA') as (e2 & d' & r2 & E2 & H0' & H1' & D0' & D1' & Hq'). rewrite E' in E2. injection E2 as <- <-.
  assert (Ee : e' = Rabs c * e).
  { apply sq_inj; auto. { apply Rmult_le_pos; auto using Rabs_pos. } rewrite H1'. replace (Rabs c * e * (Rabs c * e)) with (Rabs c * Rabs c * (e * e)) by ring.
    rewrite <- Rabs_mult, (Rabs_right (c * c)) by (apply Rle_ge, Rle_0_sqr). rewrite H1. unfold gap2. rewrite <- bsum_scal_l. apply bsum_ext. intros i Hi. rewrite <- bsum_scal_l.
    apply bsum_ext. intros j Hj. rewrite GQ, GA by auto. unfold Rsqr. ring. }
  split; auto. intros Hc. assert (Ed : d' = Rabs c * d).
  { apply sq_inj; auto. { apply Rmult_le_pos; auto using Rabs_pos. } rewrite D1'. replace (Rabs c * d * (Rabs c * d)) with (Rabs c * Rabs c * (d * d)) by ring.
    rewrite <- Rabs_mult, (Rabs_right (c * c)) by (apply Rle_ge, Rle_0_sqr). rewrite D1. unfold sumsq. rewrite <- bsum_scal_l. apply bsum_ext. intros i Hi. rewrite <- bsum_scal_l.
    apply bsum_ext. intros j Hj. rewrite GQ by auto. unfold Rsqr. ring. }
  assert (Pc : 0 < Rabs c) by now apply Rabs_pos_lt. subst e' d'. destruct Hq as [[Z ->]|[N ->]]; destruct Hq' as [[Z' ->]|[N' ->]]; auto.
  - exfalso. apply N'. rewrite Z. ring.
  - exfalso. apply Rmult_integral in Z'. destruct Z'; [lra|auto].
  - f_equal. field. split; auto. lra.
Qed.
Lemma fro_triangle Q A B e rel e' rel' e'' rel'' : is_mat n k Q -> is_mat n k A -> is_mat n k B ->
  frobenius_error (M Q) (M B) = Ok (e, rel) -> frobenius_error (M Q) (M A) = Ok (e', rel') -> frobenius_error (M A) (M B) = Ok (e'', rel'') -> e <= e' + e''.
Proof.
  intros HQ HA HB E E' E''. pose proof (fro_fact _ _ _ _ HQ HB E) as G. pose proof (fro_fact _ _ _ _ HQ HA E') as G'. pose proof (fro_fact _ _ _ _ HA HB E'') as G''.
  eapply (gnorm_triangle (Fin 2) _ _ (pf_grid n k) two_pos); [cbn; lra| |exact G'|exact G''|exact G]. intros [i j] _. cbn [fst snd].
  replace (mget Q i j - mget B i j) with ((mget Q i j - mget A i j) + (mget A i j - mget B i j)) by ring. apply Rabs_triang.
Qed.
(* the squares of the column errors add up *)
Lemma fro_columns Q A nz e rel es rels : (0 < k)%nat -> is_mat n k Q -> is_mat n k A -> frobenius_error (M Q) (M A) = Ok (e, rel) ->
  lp_error (M Q) (M A) (Fin 2) nz = Ok (es, rels) -> e * e = bsum k (fun j => vget es j * vget es j).
Proof.
  intros Hk HQ HA E E'. destruct (frobenius_ok n k Q A Hn HQ HA) as (e1 & d & r1 & E1 & H0 & H1 & _). rewrite E in E1. injection E1 as <- <-.
  destruct (lp_fact n k (Fin 2) Hn Hk two_pos Q A nz es rels HQ HA E') as (_ & _ & He & _). rewrite H1. unfold gap2. rewrite bsum_swap. apply bsum_ext. intros j Hj.
  destruct (He j Hj) as [P0 P1]. rewrite rpow_2 in P1 by auto. rewrite P1. apply bsum_ext. intros. symmetry. apply rabs2.
Qed.
End Fro.

(* ---- Lp_error ---- *)
Lemma trapezoid_ok k : forall y t, length y = k -> length t = k -> trapezoid y t = trapz k (vget t) (vget y).
Proof.
  unfold trapz. induction k as [|k IH]; intros y t Hy Ht.
  - destruct y; [|discriminate]. reflexivity.
  - destruct y as [|y0 y]; [discriminate|]. destruct t as [|t0 t]; [discriminate|]. cbn [length] in *.
    destruct k as [|k].
    + destruct y; [|discriminate]. reflexivity.
    + destruct y as [|y1 y]; [discriminate|]. destruct t as [|t1 t]; [discriminate|].
      change (trapezoid (y0 :: y1 :: y) (t0 :: t1 :: t)) with ((t1 - t0) * ((y0 + y1) / 2) + trapezoid (y1 :: y) (t1 :: t)).
      rewrite IH by (cbn [length] in *; lia). replace (S (S k) - 1)%nat with (S (S k - 1)) by lia. rewrite bsum_S_l. reflexivity.
Qed.
Lemma Lpnorm_fin_ok p n k t Z : 0 < p -> (0 < n)%nat -> (0 < k)%nat -> is_mat n k Z -> length t = k -> in_order t ->
  exists x, Lpnorm_fin p t Z = Some x /\ is_Lpnorm (Fin p) n k (vget t) (mget Z) x.
Proof.
  intros Hp Hn Hk HZ Ht Ho. unfold Lpnorm_fin. pose proof (is_mat_mT n k Z HZ Hn) as HT.
  rewrite (trapezoid_ok k) by (rewrite ?map_length; auto; apply (is_mat_len k n); auto).
  set (y := map _ (mT Z)).
  assert (Hy : forall j, (j < k)%nat -> vget y j = bsum n (fun i => rpow (Rabs (mget Z i j)) p)).
  { intros j Hj. unfold y, vget. rewrite (nth_map_in _ (mT Z) j 0 []) by (rewrite (is_mat_len k n (mT Z) HT); auto).
    destruct (mT_row n k Z j Hn HZ Hj) as [Hr Hg]. rewrite (lsum_bsum n) by auto. apply bsum_ext. intros i Hi. now rewrite Hg. }
  assert (E : trapz k (vget t) (vget y) = trapz k (vget t) (fun j => bsum n (fun i => rpow (Rabs (mget Z i j)) p))).
  { unfold trapz. apply bsum_ext. intros j Hj. rewrite !Hy by lia. reflexivity. }
  rewrite E. assert (P : 0 <= trapz k (vget t) (fun j => bsum n (fun i => rpow (Rabs (mget Z i j)) p))).
  { unfold trapz. apply bsum_nonneg. intros j Hj. apply Rmult_le_pos.
    - specialize (Ho j (S j) ltac:(lia) ltac:(lia)). lra.
    - assert (forall l, 0 <= bsum n (fun i => rpow (Rabs (mget Z i l)) p)) by (intros; apply bsum_nonneg; intros; apply rpow_ge0). pose proof (H j). pose proof (H (S j)). lra. }
  unfold nppow. destruct (Rlt_dec _ 0) as [|_]; [lra|]. eexists. split; [reflexivity|]. split; [apply rpow_ge0|]. apply rpow_root'; auto. lra.
Qed.
Lemma Lpnorm_inf_ok n k t Z : (0 < n)%nat -> (0 < k)%nat -> is_mat n k Z -> exists x, Lpnorm_inf Z = Ok x /\ is_Lpnorm Inf n k t (mget Z) x.
Proof.
  intros Hn Hk HZ. unfold Lpnorm_inf. destruct (norm0_ok Inf n k Z I Hn HZ) as (e & E & Le & He). cbn [norm0] in E.
  change (mapM (vnormp Inf) (mT Z)) with (mapM (fun col => PreModel.vmax (map Rabs col)) (mT Z)) in E. rewrite E. cbn [bind].
  destruct (vmax_bound e k) as (m & Em & M0 & M1 & j & Hj & M2); auto. { intros j Hj. apply He; auto. }
  exists m. split; auto. split; auto. split.
  - intros i l Hi Hl. destruct (He l Hl) as (_ & H1 & _). specialize (H1 i Hi). specialize (M1 l Hl). lra.
  - destruct (He j Hj) as (_ & _ & i & Hi & H2). exists i, j. split; auto. split; auto. congruence.
Qed.
Lemma is_Lpnorm_ext p n k t f g x : (forall i j, (i < n)%nat -> (j < k)%nat -> f i j = g i j) -> is_Lpnorm p n k t f x -> is_Lpnorm p n k t g x.
Proof.
  intros E (H0 & H). split; auto. destruct p as [p| | |]; auto.
  - rewrite H. unfold trapz. apply bsum_ext. intros j Hj.
    rewrite (bsum_ext n (fun i => rpow (Rabs (f i j)) p) (fun i => rpow (Rabs (g i j)) p)), (bsum_ext n (fun i => rpow (Rabs (f i (S j))) p) (fun i => rpow (Rabs (g i (S j))) p)); auto; intros i Hi; rewrite E by lia; reflexivity.
  - destruct H as (H1 & i & j & Hi & Hj & H2). split; [intros a b Ha Hb; rewrite <- E; auto|]. exists i, j. rewrite <- E; auto.
Qed.
Lemma Lp_error_ok n k Q A p t ts : (0 < n)%nat -> (0 < k)%nat -> is_mat n k Q -> is_mat n k A -> pos_order p ->
  (p = Inf \/ (t = Times ts /\ length ts = k /\ in_order ts)) ->
  exists e d rel, Lp_error (M Q) (M A) t p = Ok (Some e, rel) /\ is_Lpnorm p n k (vget ts) (fun i j => mget Q i j - mget A i j) e /\
    is_Lpnorm p n k (vget ts) (mget Q) d /\ quotient e d rel.
Proof.
  intros Hn Hk HQ HA Hp Ht. unfold Lp_error. rewrite (proj1 (check_p_ok p) Hp). cbn [bind]. rewrite (shape_eq_ok n k) by auto. cbn [negb atleast_2d].
  pose proof (is_mat_msub n k Q A HQ HA) as HE.
  assert (X : forall x, is_Lpnorm p n k (vget ts) (mget (msub Q A)) x -> is_Lpnorm p n k (vget ts) (fun i j => mget Q i j - mget A i j) x).
  { intros x. apply is_Lpnorm_ext. intros. now apply (mget_msub n k). }
  destruct p as [p| | |]; try contradiction.
  - destruct Ht as [Ht|(-> & Lt & Ho)]; [discriminate|]. rewrite (ncols_is_mat n k Q) by auto. rewrite <- Lt, Nat.eqb_refl. cbn [negb]. rewrite Lt.
    destruct (Lpnorm_fin_ok p n k ts Q Hp Hn Hk HQ Lt Ho) as (d & -> & Hd). destruct (Lpnorm_fin_ok p n k ts _ Hp Hn Hk HE Lt Ho) as (e & -> & He).
    cbn [odiv]. exists e, d. eexists. split; [reflexivity|]. split; auto. split; auto. apply npdiv_quotient.
  - destruct (Lpnorm_inf_ok n k (vget ts) Q Hn Hk HQ) as (d & -> & Hd). destruct (Lpnorm_inf_ok n k (vget ts) _ Hn Hk HE) as (e & -> & He). cbn [bind].
    exists e, d. eexists. split; [reflexivity|]. split; auto. split; auto. apply npdiv_quotient.
Qed.
Lemma Lp_error_vec q a t p : Lp_error (V q) (V a) t p = Lp_error (M [q]) (M [a]) t p.
Proof. unfold Lp_error. cbn [shape_eq atleast_2d nrows length ncols]. rewrite Nat.eqb_refl. cbn [andb]. reflexivity. Qed.
Lemma Lp_error_rejects Q A t p : ~ pos_order p \/ shape_eq Q A = false \/ (p <> Inf /\ forall ts, t = Times ts -> length ts <> ncols (atleast_2d Q)) ->
  Lp_error Q A t p = Err ValueError.
Proof.
  intros H. unfold Lp_error. destruct (check_p p) as [[]|e] eqn:EC; cbn [bind].
  - destruct (shape_eq Q A); cbn [negb]; auto. destruct H as [H|[H|[H1 H2]]]; try discriminate.
    + apply check_p_ok in EC. contradiction.
    + destruct p as [p| | |]; try discriminate; [|congruence]. destruct t as [|ts|]; auto.
      destruct (Nat.eqb_spec (ncols (atleast_2d Q)) (length ts)) as [E|E]; cbn; auto. exfalso. now apply (H2 ts).
  - destruct p as [p| | |]; cbn in EC; try discriminate; try congruence. destruct (Rle_dec p 0); [congruence|discriminate].
Qed.
Section Lp.
Variables (n k : nat) (p : order) (t : times_arg) (ts : vec).
Hypotheses (Hn : (0 < n)%nat) (Hk : (0 < k)%nat) (Hp : pos_order p).
Hypothesis (Ht : p = Inf \/ (t = Times ts /\ length ts = k /\ in_order ts)).
Definition tsel := match p with Inf => (fun _ : nat => 0) | _ => vget ts end.
Lemma pf_sel : positive_functional (grid n k) (Ltrap n k tsel).
Proof.
  apply pf_trap. intros j Hj. unfold tsel. destruct Ht as [->|(_ & L & Ho)]; [lra|]. destruct p; try lra; apply Ho; lia.
Qed.
Lemma Lp_fact Q A e rel : is_mat n k Q -> is_mat n k A -> Lp_error (M Q) (M A) t p = Ok (e, rel) ->
  exists x d, e = Some x /\ gnorm p (grid n k) (Ltrap n k tsel) (fun ij => mget Q (fst ij) (snd ij) - mget A (fst ij) (snd ij)) x /\
    gnorm p (grid n k) (Ltrap n k tsel) (fun ij => mget Q (fst ij) (snd ij)) d /\ quotient x d rel.
Proof.
  intros HQ HA E. destruct (Lp_error_ok n k Q A p t ts Hn Hk HQ HA Hp Ht) as (x & d & rel' & E' & H1 & H2 & H3). rewrite E' in E. injection E as <- <-.
  exists x, d. split; auto.
  assert (X : forall f y, is_Lpnorm p n k (vget ts) f y -> is_Lpnorm p n k tsel f y).
  { intros f y. unfold tsel, is_Lpnorm. destruct p; tauto. }
  apply X in H1. apply X in H2. rewrite Lpnorm_gnorm in H1, H2. auto.
Qed.
Lemma Lp_defined Q A : is_mat n k Q -> is_mat n k A -> exists x rel, Lp_error (M Q) (M A) t p = Ok (Some x, rel).
Proof. intros HQ HA. destruct (Lp_error_ok n k Q A p t ts Hn Hk HQ HA Hp Ht) as (x & d & rel & E & _). eauto. Qed.
Lemma Lp_zero Q A x rel : (p = Inf \/ (2 <= k)%nat /\ strictly_ordered ts) -> is_mat n k Q -> is_mat n k A -> Lp_error (M Q) (M A) t p = Ok (Some x, rel) -> (x = 0 <-> Q = A).
Proof.
  intros Hi HQ HA E. destruct (Lp_fact Q A _ rel HQ HA E) as (y & d & [= <-] & G & _).
  assert (P : x = 0 <-> forall ij, grid n k ij -> mget Q (fst ij) (snd ij) - mget A (fst ij) (snd ij) = 0).
  { assert (DI : p = Inf \/ p <> Inf) by (clear; destruct p; auto; right; discriminate). destruct DI as [Ep|NI].
    - clear - G Hn Hk Ep. rewrite Ep in G. destruct G as (G0 & G1 & ij & Hij & G2). split.
      + intros -> lm Hlm. specialize (G1 lm Hlm). cbv beta in G1. pose proof (Rabs_pos (mget Q (fst lm) (snd lm) - mget A (fst lm) (snd lm))).
        destruct (Req_dec (mget Q (fst lm) (snd lm) - mget A (fst lm) (snd lm)) 0) as [|N]; auto. apply Rabs_pos_lt in N. lra.
      + intros H. rewrite <- G2, H by auto. apply Rabs_R0.
    - destruct Hi as [|[K2 Hi]]; [contradiction|]. destruct Ht as [|(_ & L & Ho)]; [contradiction|].
      apply (gnorm_zero p _ _ pf_sel Hp); auto. apply def_trap; auto. intros j Hj. unfold tsel.
      destruct p; try (apply Hi; lia). congruence. }
  rewrite P. split.
  - intros H. apply (mat_ext n k); auto. intros i j Hii Hj. specialize (H (i, j) (conj Hii Hj)). cbn in H. lra.
  - intros -> ij _. ring.
Qed.
Lemma Lp_sym Q A x rel y rel' : is_mat n k Q -> is_mat n k A -> Lp_error (M Q) (M A) t p = Ok (Some x, rel) -> Lp_error (M A) (M Q) t p = Ok (Some y, rel') -> y = x.
Proof.
  intros HQ HA E E'. destruct (Lp_fact Q A _ rel HQ HA E) as (x' & d & [= <-] & G & _). destruct (Lp_fact A Q _ rel' HA HQ E') as (y' & d' & [= <-] & G' & _).
  apply (gnorm_unique p _ _ Hp _ _ _ G'). revert G. apply (gnorm_abs p _ _ pf_sel). intros. apply Rabs_minus_sym.
Qed.
Lemma Lp_scale c Q A Q' A' x rel y rel' : is_mat n k Q -> is_mat n k A -> times n k c Q Q' -> times n k c A A' ->
  Lp_error (M Q) (M A) t p = Ok (Some x, rel) -> Lp_error (M Q') (M A') t p = Ok (Some y, rel') -> y = Rabs c * x /\ (c <> 0 -> rel' = rel).
Proof.
  intros HQ HA [HQ' GQ] [HA' GA] E E'. destruct (Lp_fact Q A _ rel HQ HA E) as (x' & d & [= <-] & G & D & Hq). destruct (Lp_fact Q' A' _ rel' HQ' HA' E') as (y' & d' & [= <-] & G' & D' & Hq').
  assert (Ee : y = Rabs c * x).
  { apply (gnorm_unique p _ _ Hp _ _ _ G'). apply (gnorm_scal p _ _ pf_sel Hp c) in G. revert G. apply (gnorm_abs p _ _ pf_sel). intros [i j] [Hi Hj]. cbn [fst snd] in *. rewrite GQ, GA by auto. f_equal. ring. }
  assert (Ed : d' = Rabs c * d).
  { apply (gnorm_unique p _ _ Hp _ _ _ D'). apply (gnorm_scal p _ _ pf_sel Hp c) in D. revert D. apply (gnorm_abs p _ _ pf_sel). intros [i j] [Hi Hj]. cbn [fst snd] in *. rewrite GQ by auto. reflexivity. }
  split; auto. intros Hc. assert (Pc : 0 < Rabs c) by now apply Rabs_pos_lt. rewrite Ee, Ed in Hq'. clear - Hq Hq' Pc.
  destruct Hq as [[Z ->]|[N ->]]; destruct Hq' as [[Z' ->]|[N' ->]]; auto.
  - exfalso. apply N'. rewrite Z. ring.
  - exfalso. apply Rmult_integral in Z'. destruct Z'; [lra|auto].
  - f_equal. field. split; auto. lra.
Qed.
Lemma Lp_triangle Q A B x rel y rel' z rel'' : at_least_one p -> is_mat n k Q -> is_mat n k A -> is_mat n k B ->
  Lp_error (M Q) (M B) t p = Ok (Some x, rel) -> Lp_error (M Q) (M A) t p = Ok (Some y, rel') -> Lp_error (M A) (M B) t p = Ok (Some z, rel'') -> x <= y + z.
Proof.
  intros H1 HQ HA HB E E' E''. destruct (Lp_fact _ _ _ _ HQ HB E) as (x' & d & [= <-] & G & _). destruct (Lp_fact _ _ _ _ HQ HA E') as (y' & d' & [= <-] & G' & _). destruct (Lp_fact _ _ _ _ HA HB E'') as (z' & d'' & [= <-] & G'' & _).
  eapply (gnorm_triangle p _ _ pf_sel Hp); [exact H1| |exact G'|exact G''|exact G]. intros [i j] _. cbn [fst snd].
  replace (mget Q i j - mget B i j) with ((mget Q i j - mget A i j) + (mget A i j - mget B i j)) by ring. apply Rabs_triang.
Qed.
End Lp.

(* ---- projection_error ---- *)
Lemma bsum_sqr_diff n (f g : nat -> R) : bsum n (fun i => Rsqr (f i - g i)) = bsum n (fun i => Rsqr (f i)) - 2 * bsum n (fun i => f i * g i) + bsum n (fun i => Rsqr (g i)).
Proof. rewrite <- bsum_scal_l, <- bsum_minus, <- bsum_plus. apply bsum_ext. intros. unfold Rsqr. ring. Qed.
(* |V x|^2 = |x|^2 for orthonormal columns *)
Lemma ortho_norm n r V (c : nat -> R) : orthocols n r V -> bsum n (fun i => Rsqr (bsum r (fun a => mget V i a * c a))) = bsum r (fun a => Rsqr (c a)).
Proof.
  intros [HV HO].
  transitivity (bsum n (fun i => bsum r (fun a => bsum r (fun b => c a * c b * (mget V i a * mget V i b))))).
  - apply bsum_ext. intros i Hi. unfold Rsqr. rewrite bsum_prod. apply bsum_ext. intros a Ha. apply bsum_ext. intros b Hb. ring.
  - rewrite bsum_swap. apply bsum_ext. intros a Ha. rewrite bsum_swap.
    unfold Rsqr. rewrite <- (bsum_delta_l r a (fun b => c a * c b)) by auto. apply bsum_ext. intros b Hb. rewrite bsum_scal_l, HO by auto. ring.
Qed.
(* the distance from q to V c, for any c *)
Lemma ortho_gap n r V (q c : nat -> R) : orthocols n r V ->
  bsum n (fun i => Rsqr (q i - bsum r (fun a => mget V i a * c a))) =
  bsum n (fun i => Rsqr (q i)) - bsum r (fun a => Rsqr (bsum n (fun i => mget V i a * q i))) + bsum r (fun a => Rsqr (c a - bsum n (fun i => mget V i a * q i))).
Proof.
  intros HV. rewrite bsum_sqr_diff, (ortho_norm n r V c HV). rewrite (bsum_sqr_diff r c).
  replace (bsum n (fun i => q i * bsum r (fun a => mget V i a * c a))) with (bsum r (fun a => c a * bsum n (fun i => mget V i a * q i))); [ring|].
  transitivity (bsum r (fun a => bsum n (fun i => c a * (mget V i a * q i)))).
  - apply bsum_ext. intros. now rewrite bsum_scal_l.
  - rewrite bsum_swap. apply bsum_ext. intros i Hi. rewrite <- bsum_scal_l. apply bsum_ext. intros. ring.
Qed.
Section Proj.
Variables (n r k : nat).
Hypotheses (Hn : (0 < n)%nat) (Hr : (0 < r)%nat) (Hk : (0 < k)%nat).
Lemma projection_ok V Q : orthocols n r V -> is_mat n k Q -> exists e d rel C,
  projection_error (M Q) V = Ok (e, rel) /\ 0 <= e /\ 0 <= d /\ d * d = sumsq n k Q /\ quotient e d rel /\
  is_mat r k C /\ (forall a j, (a < r)%nat -> (j < k)%nat -> mget C a j = bsum n (fun i => mget V i a * mget Q i j)) /\
  e * e = bsum n (fun i => bsum k (fun j => Rsqr (mget Q i j - combo r V C i j))) /\
  sumsq n k Q = sumsq r k C + e * e /\
  (forall C', e * e <= bsum n (fun i => bsum k (fun j => Rsqr (mget Q i j - combo r V C' i j)))).
Proof.
  intros HO HQ. pose proof HO as [HV _]. unfold projection_error, matdot. pose proof (is_mat_mT n r V HV Hn) as HT.
  rewrite (OpsProofs.matmul_r_ok r n k) by auto. cbn [bind]. pose proof (is_mat_matmul r n k (mT V) Q HT HQ) as HC.
  assert (HC' : is_mat r k (matmul (mT V) Q)) by (apply HC; lia). clear HC.
  rewrite (OpsProofs.matmul_r_ok n r k) by auto. cbn [bind arrsub]. set (C := matmul (mT V) Q) in *.
  assert (HA : is_mat n k (matmul V C)) by (apply (is_mat_matmul n r k); auto).
  destruct (norm2_ok n k Q HQ) as [D0 D1]. destruct (norm2_ok n k (msub Q (matmul V C)) (is_mat_msub n k _ _ HQ HA)) as [E0 E1].
  rewrite sumsq_msub in E1 by auto.
  assert (GC : forall a j, (a < r)%nat -> (j < k)%nat -> mget C a j = bsum n (fun i => mget V i a * mget Q i j)).
  { intros a j Ha Hj. unfold C. rewrite (mget_matmul r n k) by auto. apply bsum_ext. intros i Hi. now rewrite (mget_mT n r) by auto. }
  assert (EE : gap2 n k Q (matmul V C) = bsum n (fun i => bsum k (fun j => Rsqr (mget Q i j - combo r V C i j)))).
  { unfold gap2. apply bsum_ext. intros i Hi. apply bsum_ext. intros j Hj. now rewrite (mget_matmul n r k) by auto. }
  assert (COL : forall C', bsum n (fun i => bsum k (fun j => Rsqr (mget Q i j - combo r V C' i j))) =
     sumsq n k Q - sumsq r k C + bsum k (fun j => bsum r (fun a => Rsqr (mget C' a j - mget C a j)))).
  { intros C'. rewrite bsum_swap. unfold sumsq. rewrite (bsum_swap n k), (bsum_swap r k), <- bsum_minus, <- bsum_plus. apply bsum_ext. intros j Hj.
    unfold combo. rewrite (ortho_gap n r V (fun i => mget Q i j) (fun a => mget C' a j) HO). f_equal; [f_equal|].
    - apply bsum_ext. intros a Ha. now rewrite GC.
    - apply bsum_ext. intros a Ha. now rewrite GC. }
  exists (norm2 (M (msub Q (matmul V C)))), (norm2 (M Q)). eexists. exists C. split; [reflexivity|]. do 3 (split; [assumption|]). split; [apply npdiv_quotient|].
  split; [assumption|]. split; [assumption|]. split; [congruence|]. rewrite E1, EE.
  assert (Z : bsum k (fun j => bsum r (fun a => Rsqr (mget C a j - mget C a j))) = 0) by (apply bsum_0; intros; apply bsum_0; intros; unfold Rsqr; ring).
  split; [rewrite COL, Z; ring|]. intros C'. rewrite (COL C), (COL C'), Z. apply Rplus_le_compat_l. apply bsum_nonneg. intros. apply bsum_nonneg. intros. apply Rle_0_sqr.
Qed.
(* the relative error is at most one *)
Lemma projection_le_one V Q e rel x : orthocols n r V -> is_mat n k Q -> projection_error (M Q) V = Ok (e, rel) -> rel = Some x -> 0 <= x <= 1.
Proof.
  intros HO HQ E Ex. destruct (projection_ok V Q HO HQ) as (e' & d & rel' & C & E' & H0 & D0 & D1 & Hq & _ & _ & _ & HP & _). rewrite E' in E. injection E as -> ->.
  subst rel. destruct Hq as [[_ K]|[N [= ->]]]; [discriminate|]. assert (0 < d) by lra.
  assert (0 <= sumsq r k C) by (unfold sumsq; apply bsum_nonneg; intros; apply bsum_nonneg; intros; apply Rle_0_sqr).
  assert (e <= d) by nra. split; [apply Rmult_le_pos; [auto|left; now apply Rinv_0_lt_compat]|]. apply Rmult_le_reg_r with d; auto. unfold Rdiv. rewrite Rmult_assoc, Rinv_l; lra.
Qed.
(* no error exactly in the span of the columns *)
Lemma projection_zero V Q e rel : orthocols n r V -> is_mat n k Q -> projection_error (M Q) V = Ok (e, rel) ->
  (e = 0 <-> exists C, forall i j, (i < n)%nat -> (j < k)%nat -> mget Q i j = combo r V C i j).
Proof.
  intros HO HQ E. destruct (projection_ok V Q HO HQ) as (e' & d & rel' & C & E' & H0 & D0 & D1 & Hq & _ & _ & HE & _ & HB). rewrite E' in E. injection E as -> ->. split.
  - intros ->. exists C. intros i j Hi Hj. symmetry in HE. rewrite Rmult_0_l in HE.
    assert (K : bsum k (fun j => Rsqr (mget Q i j - combo r V C i j)) = 0).
    { apply (bsum_nonneg_0 n (fun i => bsum k (fun j => Rsqr (mget Q i j - combo r V C i j)))); auto. intros. apply bsum_nonneg. intros. apply Rle_0_sqr. }
    assert (K2 : Rsqr (mget Q i j - combo r V C i j) = 0).
    { apply (bsum_nonneg_0 k (fun j => Rsqr (mget Q i j - combo r V C i j))); auto. intros. apply Rle_0_sqr. }
    apply Rsqr_0_uniq in K2. lra.
  - intros [C' HC']. specialize (HB C'). assert (Z : bsum n (fun i => bsum k (fun j => Rsqr (mget Q i j - combo r V C' i j))) = 0).
    { apply bsum_0. intros. apply bsum_0. intros. rewrite HC' by auto. unfold Rsqr. ring. }
    nra.
Qed.
End Proj.

(* a single state is a matrix with one column *)
Definition onecol (v : vec) : mat := map (fun x => [x]) v.
Lemma mT_onecol v : v <> [] -> mT (onecol v) = [v].
Proof.
  intros H. unfold mT, onecol. destruct v as [|x v]; [congruence|]. cbn [map ncols length seq nth]. do 2 f_equal.
  rewrite map_map. cbn. apply map_id.
Qed.
Lemma matmul_onecol A v : v <> [] -> matmul A (onecol v) = onecol (matvec A v).
Proof. intros H. unfold matmul, matvec, onecol at 2. rewrite mT_onecol by auto. rewrite map_map. reflexivity. Qed.
Lemma msub_onecol u : forall v, msub (onecol u) (onecol v) = onecol (vsub u v).
Proof. unfold msub, vsub, onecol. induction u as [|a u IH]; intros [|b v]; cbn; auto. now rewrite IH. Qed.
Lemma mnorm2_onecol v : mnorm2 (onecol v) = vnorm2 v.
Proof.
  unfold mnorm2, vnorm2, onecol. rewrite map_map. f_equal. apply map_ext. intros x. cbn. unfold lsum. cbn. ring.
Qed.
Lemma projection_vec n r V q : (0 < n)%nat -> (0 < r)%nat -> is_mat n r V -> is_vec n q ->
  projection_error (OpsModel.V q) V = projection_error (M (onecol q)) V.
Proof.
  intros Hn Hr HV Hq. unfold projection_error, matdot. pose proof (is_mat_mT n r V HV Hn) as HT.
  assert (HC : is_mat n 1 (onecol q)).
  { unfold onecol. split; [rewrite map_length; auto|]. apply Forall_forall. intros row Hrow. apply in_map_iff in Hrow. destruct Hrow as (x & <- & _). reflexivity. }
  assert (Nq : q <> []) by (intros ->; unfold is_vec in Hq; cbn in Hq; lia).
  rewrite (OpsProofs.matvec_r_ok r n), (OpsProofs.matmul_r_ok r n 1) by auto. cbn [bind]. rewrite matmul_onecol by auto.
  assert (Hw : is_vec r (matvec (mT V) q)) by (unfold is_vec, matvec; rewrite map_length; apply (is_mat_len r n); auto).
  assert (Nw : matvec (mT V) q <> []) by (intros K; rewrite K in Hw; unfold is_vec in Hw; cbn in Hw; lia).
  rewrite (OpsProofs.matvec_r_ok n r) by auto. rewrite (OpsProofs.matmul_r_ok n r 1); auto.
  - cbn [bind arrsub norm2]. rewrite matmul_onecol, msub_onecol, !mnorm2_onecol by auto. reflexivity.
  - unfold onecol. split; [rewrite map_length; auto|]. apply Forall_forall. intros row Hrow. apply in_map_iff in Hrow. destruct Hrow as (x & <- & _). reflexivity.
Qed.

(* ---- what is false ---- *)
Lemma lp_triangle_below_one : exists p Q A B e rel e' rel' e'' rel'', 0 < p < 1 /\
  lp_error (M Q) (M B) (Fin p) false = Ok (e, rel) /\ lp_error (M Q) (M A) (Fin p) false = Ok (e', rel') /\ lp_error (M A) (M B) (Fin p) false = Ok (e'', rel'') /\
  vget e 0 > vget e' 0 + vget e'' 0.
Proof.
  assert (H2 : rpow 4 (/ 2) = 2).
  { replace 4 with (2 * 2) by ring. rewrite <- rpow_2 by lra. replace (/ 2) with (1 / 2) by field. apply rpow_root; lra. }
  assert (Hp : pos_order (Fin (/ 2))) by (cbn; lra).
  set (Q := [[1]; [0]] : mat). set (A := [[0]; [0]] : mat). set (B := [[0]; [1]] : mat).
  assert (HQ : is_mat 2 1 Q) by (split; [reflexivity|repeat constructor]). assert (HA : is_mat 2 1 A) by (split; [reflexivity|repeat constructor]). assert (HB : is_mat 2 1 B) by (split; [reflexivity|repeat constructor]).
  destruct (lp_error_ok 2 1 Q B (Fin (/ 2)) false) as (e & rel & _ & E & _ & _ & _ & He & _); auto.
  destruct (lp_error_ok 2 1 Q A (Fin (/ 2)) false) as (e' & rel' & _ & E' & _ & _ & _ & He' & _); auto.
  destruct (lp_error_ok 2 1 A B (Fin (/ 2)) false) as (e'' & rel'' & _ & E'' & _ & _ & _ & He'' & _); auto.
  exists (/ 2), Q, A, B, e, rel, e', rel', e'', rel''. split; [lra|]. do 3 (split; [assumption|]).
  specialize (He 0%nat ltac:(lia)). specialize (He' 0%nat ltac:(lia)). specialize (He'' 0%nat ltac:(lia)).
  assert (A1 : Rabs (1 - 0) = 1) by (rewrite Rabs_right; lra). assert (A2 : Rabs (0 - 1) = 1) by (rewrite Rabs_left; lra). assert (A0 : Rabs (0 - 0) = 0) by (rewrite Rabs_right; lra).
  assert (X : vget e 0 = 4).
  { apply (gnorm_unique (Fin (/ 2)) (fun i => (i < 2)%nat) (bsum 2) Hp _ _ _ He). split; [lra|]. rewrite H2. cbn. rewrite A1, A2, rpow_1l. ring. }
  assert (X' : vget e' 0 = 1).
  { apply (gnorm_unique (Fin (/ 2)) (fun i => (i < 2)%nat) (bsum 2) Hp _ _ _ He'). split; [lra|]. rewrite rpow_1l. cbn. rewrite A1, A0, rpow_1l, rpow_0. ring. }
  assert (X'' : vget e'' 0 = 1).
  { apply (gnorm_unique (Fin (/ 2)) (fun i => (i < 2)%nat) (bsum 2) Hp _ _ _ He''). split; [lra|]. rewrite rpow_1l. cbn. rewrite A2, A0, rpow_1l, rpow_0. ring. }
  lra.
Qed.
Lemma Lp_one_time : exists Q A t, Lp_error (M Q) (M A) (Times t) (Fin 2) = Ok (Some 0, None) /\ Q <> A /\ shape_eq (M Q) (M A) = true /\ length t = 1%nat.
Proof.
  exists [[1]], [[0]], [0]. split; [|split; [intros [= H]; lra|split; reflexivity]].
  unfold Lp_error, check_p. destruct (Rle_dec 2 0) as [|_]; [lra|]. cbn. unfold Lpnorm_fin. cbn. unfold nppow. destruct (Rlt_dec 0 0) as [|_]; [lra|].
  rewrite rpow_0. cbn. unfold npdiv. destruct (Req_EM_T 0 0); [reflexivity|congruence].
Qed.
Lemma Lp_unordered : exists Q A t, Lp_error (M Q) (M A) (Times t) (Fin 2) = Ok (None, None) /\ shape_eq (M Q) (M A) = true /\ length t = 2%nat.
Proof.
  exists [[1; 1]], [[0; 0]], [1; 0]. split; [|split; reflexivity].
  unfold Lp_error, check_p. destruct (Rle_dec 2 0) as [|_]; [lra|]. cbn. unfold Lpnorm_fin. cbn.
  assert (A1 : Rabs (1 - 0) = 1) by (rewrite Rabs_right; lra). rewrite A1. rewrite (Rabs_right 1) by lra. rewrite rpow_1l. unfold nppow, lsum. cbn.
  destruct (Rlt_dec _ 0) as [|N]; [reflexivity|]. exfalso. apply N. lra.
Qed.

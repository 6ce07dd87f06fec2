(* OdeUnique.v -- trajectories of a model are unique: the right-hand side is locally Lipschitz, and Gronwall's lemma. *)
From Coq Require Import ZArith Reals Lra Lia.
From Verif Require Import TupleFinal OpsProofs JacProofs MonoStmts.
From Verif Require Export SpecOde.
#[local] Open Scope nat_scope.

(* ---- a nonincreasing function ---- *)
(* the derivative at a point is the limit of one sequence of difference quotients *)
Lemma the_derivative f t : (exists l, derivable_pt_lim f t l) -> { l : R | derivable_pt_lim f t l }.
Proof. intros H. set (Un := fun n => ((f (t + / INR (S n)) - f t) / (/ INR (S n)))%R).
  assert (HU : forall l, derivable_pt_lim f t l -> Un_cv Un l).
  { intros l Hl eps He. destruct (Hl eps He) as (delta & Hd). destruct (archimed_cor1 delta (cond_pos delta)) as (N & HN & HN0). exists N. intros n Hn.
    unfold R_dist, Un. apply Hd.
    - apply Rinv_neq_0_compat, not_0_INR. lia.
    - assert (P : (0 < INR (S n))%R) by (apply lt_0_INR; lia). rewrite Rabs_right by (left; apply Rinv_0_lt_compat; auto).
      eapply Rle_lt_trans; [|exact HN]. apply Rinv_le_contravar; [apply lt_0_INR; lia|apply le_INR; lia]. }
  assert (HC : Cauchy_crit Un) by (destruct H as (l & Hl); apply CV_Cauchy; exists l; apply HU; auto).
  destruct (R_complete Un HC) as (l & Hl). exists l. destruct H as (l' & Hl'). rewrite (UL_sequence Un l l' Hl (HU l' Hl')). exact Hl'. Qed.
Lemma mvt_le (f : R -> R) a b : (a <= b)%R -> (forall t, (a <= t <= b)%R -> continuity_pt f t) ->
  (forall t, (a < t < b)%R -> exists l, derivable_pt_lim f t l /\ (l <= 0)%R) -> (f b <= f a)%R.
Proof. intros Hab Hc Hd. destruct (Rle_lt_or_eq_dec a b Hab) as [Hlt|<-]; [|lra].
  assert (X : forall c, (a < c < b)%R -> derivable_pt f c) by (intros c Hc'; apply the_derivative; destruct (Hd c Hc') as (l & Hl & _); exists l; auto).
  assert (X0 : forall c, (a < c < b)%R -> derivable_pt id c) by (intros; apply derivable_pt_id).
  destruct (MVT f id a b X X0 Hlt) as (c & P & E); auto.
  - intros c Hcc. apply derivable_continuous_pt, derivable_pt_id.
  - destruct (Hd c P) as (l & Hl & Hn). rewrite (derive_pt_eq_0 f c l (X c P) Hl) in E. rewrite (derive_pt_eq_0 id c 1%R (X0 c P) (derivable_pt_lim_id c)) in E.
    unfold id in E. assert ((b - a) * l <= 0)%R by (rewrite <- (Rmult_0_r (b - a)); apply Rmult_le_compat_l; lra). lra. Qed.
(* Gronwall *)
Lemma gronwall (e : R -> R) L a b : (a <= b)%R -> (forall t, (a <= t <= b)%R -> continuity_pt e t) ->
  (forall t, (a < t < b)%R -> exists l, derivable_pt_lim e t l /\ (l <= L * e t)%R) -> (e b <= e a * exp (L * (b - a)))%R.
Proof. intros Hab Hc Hd.
  assert (H : (e b * exp (- L * b) <= e a * exp (- L * a))%R).
  { assert (HE : forall t, derivable_pt_lim (fun s => exp (- L * s)%R) t (exp (- L * t) * - L)%R).
    { intros t. replace (exp (- L * t) * - L)%R with (exp (- L * t) * (- L * 1))%R by ring.
      apply (derivable_pt_lim_comp (fun s => (- L * s)%R) exp); [apply (derivable_pt_lim_scal id (- L) t 1), derivable_pt_lim_id|apply derivable_pt_lim_exp]. }
    apply (mvt_le (fun s => (e s * exp (- L * s))%R)); auto.
    - intros t Ht. apply (continuity_pt_mult e (fun s => exp (- L * s))); auto. apply derivable_continuous_pt. exists (exp (- L * t) * - L)%R. apply HE.
    - intros t Ht. destruct (Hd t Ht) as (l & Hl & HL). exists (l * exp (- L * t) + e t * (exp (- L * t) * - L))%R. split.
      + apply (derivable_pt_lim_mult e (fun s => exp (- L * s))); auto.
      + assert (P := exp_pos (- L * t)). replace (l * exp (- L * t) + e t * (exp (- L * t) * - L))%R with ((l - L * e t) * exp (- L * t))%R by ring.
        assert ((L * e t - l) * exp (- L * t) >= 0)%R; [|lra]. apply Rle_ge, Rmult_le_pos; lra. }
  replace (e b) with ((e b * exp (- L * b)) * exp (L * b))%R by (rewrite Rmult_assoc, <- exp_plus; replace (- L * b + L * b)%R with 0%R by ring; rewrite exp_0; ring).
  replace (L * (b - a))%R with (- L * a + L * b)%R by ring. rewrite exp_plus, <- Rmult_assoc. apply Rmult_le_compat_r; [left; apply exp_pos|exact H]. Qed.

(* ---- locally Lipschitz ---- *)
Definition near (K D a b : R) : Prop := (Rabs a <= K)%R /\ (Rabs b <= K)%R /\ (Rabs (a - b) <= D)%R.
Lemma near_mul K1 D1 K2 D2 a b c d : near K1 D1 a b -> near K2 D2 c d -> near (K1 * K2) (K1 * D2 + K2 * D1) (a * c) (b * d).
Proof. intros (A1 & A2 & A3) (B1 & B2 & B3). assert (P := Rabs_pos). unfold near. rewrite !Rabs_mult. split; [|split].
  - apply Rmult_le_compat; auto.
  - apply Rmult_le_compat; auto.
  - replace (a * c - b * d)%R with (a * (c - d) + (a - b) * d)%R by ring. eapply Rle_trans; [apply Rabs_triang|]. rewrite !Rabs_mult.
    apply Rplus_le_compat; [apply Rmult_le_compat; auto|rewrite (Rmult_comm K2); apply Rmult_le_compat; auto]. Qed.
Lemma near_0 K D a b : near K D a b -> (0 <= K)%R /\ (0 <= D)%R.
Proof. intros (A1 & A2 & A3). assert (P := Rabs_pos a). assert (Q := Rabs_pos (a - b)). split; lra. Qed.
(* an inner product with a fixed row *)
Lemma near_dot row : exists C, (0 <= C)%R /\ forall K D x y, (0 <= K)%R -> (0 <= D)%R -> Forall2 (near K D) x y -> near (C * K) (C * D) (dot row x) (dot row y).
Proof. induction row as [|c row IH].
  - exists 0%R. split; [lra|]. intros K D x y _ _ H. unfold dot. cbn. unfold near, lsum. cbn. rewrite !Rminus_0_r, !Rabs_R0. lra.
  - destruct IH as (C & HC & IH). assert (Pc := Rabs_pos c). exists (Rabs c + C)%R. split; [lra|]. intros K D x y HK HD H.
    assert (P1 : (0 <= (Rabs c + C) * K)%R) by (apply Rmult_le_pos; lra). assert (P2 : (0 <= (Rabs c + C) * D)%R) by (apply Rmult_le_pos; lra).
    destruct H as [|a b x y (A1 & A2 & A3) H].
    + unfold dot, near, lsum. cbn. rewrite !Rminus_0_r, !Rabs_R0. lra.
    + specialize (IH K D x y HK HD H). destruct IH as (I1 & I2 & I3).
      assert (E : forall a x, dot (c :: row) (a :: x) = (c * a + dot row x)%R) by reflexivity. rewrite !E. unfold near. rewrite !Rmult_plus_distr_r. split; [|split].
      * eapply Rle_trans; [apply Rabs_triang|]. rewrite Rabs_mult. apply Rplus_le_compat; auto. apply Rmult_le_compat_l; auto.
      * eapply Rle_trans; [apply Rabs_triang|]. rewrite Rabs_mult. apply Rplus_le_compat; auto. apply Rmult_le_compat_l; auto.
      * replace (c * a + dot row x - (c * b + dot row y))%R with (c * (a - b) + (dot row x - dot row y))%R by ring.
        eapply Rle_trans; [apply Rabs_triang|]. rewrite Rabs_mult. apply Rplus_le_compat; auto. apply Rmult_le_compat_l; auto. Qed.
(* a monomial *)
Lemma near_mono B (HB : (0 <= B)%R) t : exists K L, (0 <= K)%R /\ (0 <= L)%R /\ forall D q q', (0 <= D)%R -> (forall i, In i t -> near B D (vget q i) (vget q' i)) -> near K (L * D) (mono q t) (mono q' t).
Proof. induction t as [|i t (K & L & HK & HL & IH)].
  - exists 1%R, 0%R. split; [lra|]. split; [lra|]. intros D q q' HD _. change (mono q []) with 1%R. change (mono q' []) with 1%R. unfold near. rewrite Rminus_diag_eq, Rabs_R0, Rabs_R1 by reflexivity. lra.
  - exists (B * K)%R, (B * L + K)%R. split; [apply Rmult_le_pos; auto|]. split; [assert (H := Rmult_le_pos _ _ HB HL); lra|].
    intros D q q' HD H. change (mono q (i :: t)) with (vget q i * mono q t)%R. change (mono q' (i :: t)) with (vget q' i * mono q' t)%R.
    replace ((B * L + K) * D)%R with (B * (L * D) + K * D)%R by ring. apply near_mul; [apply H; left; auto|apply IH; auto; intros j Hj; apply H; right; auto]. Qed.
Lemma near_monos B (HB : (0 <= B)%R) ts : exists K L, (0 <= K)%R /\ (0 <= L)%R /\ forall D q q', (0 <= D)%R -> (forall t i, In t ts -> In i t -> near B D (vget q i) (vget q' i)) ->
  Forall2 (near K (L * D)) (map (mono q) ts) (map (mono q') ts).
Proof. induction ts as [|t ts (K & L & HK & HL & IH)].
  - exists 0%R, 0%R. split; [lra|]. split; [lra|]. constructor.
  - destruct (near_mono B HB t) as (K1 & L1 & HK1 & HL1 & H1). exists (K + K1)%R, (L + L1)%R. split; [lra|]. split; [lra|]. intros D q q' HD H.
    assert (W : forall K' L' a b, (0 <= K')%R -> (0 <= L')%R -> forall K'' L'', (K' <= K'')%R -> (L' <= L'')%R -> near K' (L' * D) a b -> near K'' (L'' * D) a b).
    { intros K' L' a b _ _ K'' L'' A1 A2 (N1 & N2 & N3). assert (L' * D <= L'' * D)%R by (apply Rmult_le_compat_r; auto). unfold near. lra. }
    cbn [map]. constructor.
    + apply (W K1 L1); auto; try lra. apply H1; auto. intros i Hi. apply (H t); auto. left; auto.
    + assert (F : Forall2 (near K (L * D)) (map (mono q) ts) (map (mono q') ts)) by (apply IH; auto; intros t' i Ht Hi; apply (H t'); auto; right; auto).
      clear -F W HK HL HK1 HL1. revert F. generalize (map (mono q) ts) (map (mono q') ts). induction 1; constructor; auto. apply (W K L); auto; lra. Qed.

Lemma bsum_term n (f : nat -> R) : (forall i, i < n -> (0 <= f i)%R) -> forall i, i < n -> (f i <= bsum n f)%R.
Proof. induction n as [|n IH]; intros H i Hi; [lia|]. cbn [bsum]. assert (P : (0 <= bsum n f)%R) by (apply bsum_nonneg; intros; apply H; lia). destruct (Nat.eq_dec i n) as [->|Hne]; [lra|].
  assert (K : (f i <= bsum n f)%R) by (apply IH; [intros; apply H; lia|lia]). assert (Q := H n (Nat.lt_succ_diag_r n)). lra. Qed.

(* states and inputs with entries bounded by B *)
Definition inside (B : R) (q : vec) : Prop := forall i, (Rabs (vget q i) <= B)%R.
Lemma near_states r B D q q' : (0 <= D)%R -> is_vec r q -> is_vec r q' -> inside B q -> inside B q' -> (forall i, i < r -> (Rabs (vget q i - vget q' i) <= D)%R) -> forall i, near B D (vget q i) (vget q' i).
Proof. intros HD Hq Hq' H H' Hd i. split; [apply H|]. split; [apply H'|]. destruct (Nat.lt_ge_cases i r) as [Hi|Hi]; auto.
  unfold vget. rewrite !nth_overflow by (unfold is_vec in *; lia). rewrite Rminus_diag_eq, Rabs_R0 by reflexivity. auto. Qed.
Lemma near_list (P : R -> R -> Prop) q q' : length q = length q' -> (forall i, i < length q -> P (vget q i) (vget q' i)) -> Forall2 P q q'.
Proof. revert q'. induction q as [|a q IH]; intros [|b q'] Hl H; try discriminate; constructor.
  - apply (H 0). cbn. lia.
  - apply IH; [cbn in Hl; lia|]. intros i Hi. apply (H (S i)). cbn. lia. Qed.
Lemma near_scale B D a q q' : (0 <= B)%R -> (0 <= D)%R -> (Rabs a <= B)%R -> Forall2 (near B D) q q' -> Forall2 (near (B * B) (B * D)) (vscale a q) (vscale a q').
Proof. intros HB HD Ha H. unfold vscale. induction H as [|x y l l' (A1 & A2 & A3) H IH]; cbn [map]; constructor; auto. unfold near. rewrite <- Rmult_minus_distr_l, !Rabs_mult.
  assert (P := Rabs_pos). repeat split; apply Rmult_le_compat; auto. Qed.
Lemma near_kron B D u q q' : (0 <= B)%R -> (0 <= D)%R -> inside B u -> Forall2 (near B D) q q' -> Forall2 (near (B * B) (B * D)) (kronv u q) (kronv u q').
Proof. intros HB HD Hu H. unfold kronv. induction u as [|a u IH]; cbn [map List.concat]; [constructor|]. apply Forall2_app.
  - apply near_scale; auto. apply (Hu 0).
  - apply IH. intros i. apply (Hu (S i)). Qed.
Lemma near_data r m o B : (0 <= B)%R -> wf_op r m o -> exists K L, (0 <= K)%R /\ (0 <= L)%R /\ forall D q q' u, (0 <= D)%R -> is_vec r q -> is_vec r q' -> inside B q -> inside B q' -> inside B u ->
  (forall i, i < r -> (Rabs (vget q i - vget q' i) <= D)%R) -> Forall2 (near K (L * D)) (datavec o q u) (datavec o q' u).
Proof. intros HB Hw.
  assert (HS : forall D q q', (0 <= D)%R -> is_vec r q -> is_vec r q' -> inside B q -> inside B q' -> (forall i, i < r -> (Rabs (vget q i - vget q' i) <= D)%R) -> Forall2 (near B D) q q').
  { intros D q q' HD Hq Hq' I I' Hd. apply near_list; [unfold is_vec in *; congruence|]. intros i _. eapply near_states; eauto. }
  destruct o as [c|A|dg H|Bm|N]; cbn [datavec].
  - exists 1%R, 0%R. split; [lra|]. split; [lra|]. intros. repeat constructor; rewrite ?Rminus_diag_eq, ?Rabs_R0, ?Rabs_R1 by reflexivity; lra.
  - exists B, 1%R. split; auto. split; [lra|]. intros. rewrite Rmult_1_l. apply HS; auto.
  - destruct (near_monos B HB (monomials (deg dg) r)) as (K & L & HK & HL & HM). exists K, L. split; auto. split; auto. intros D q q' u HD Hq Hq' I I' _ Hd.
    rewrite !ckron_of_mono, Hq, Hq'. apply HM; auto. intros t i _ _. eapply near_states; eauto.
  - exists B, 0%R. split; auto. split; [lra|]. intros D q q' u HD _ _ _ _ Iu _. rewrite Rmult_0_l. apply near_list; auto. intros i _. unfold near. rewrite Rminus_diag_eq, Rabs_R0 by reflexivity. split; [apply Iu|]. split; [apply Iu|lra].
  - exists (B * B)%R, B. split; [apply Rmult_le_pos; auto|]. split; auto. intros. apply near_kron; auto. Qed.
Lemma near_val r m o B i : (0 <= B)%R -> sized r m o -> exists L, (0 <= L)%R /\ forall D q q' u, (0 <= D)%R -> is_vec r q -> is_vec r q' -> inside B q -> inside B q' -> inside B u ->
  (forall k, k < r -> (Rabs (vget q k - vget q' k) <= D)%R) -> (Rabs (opval q u i o - opval q' u i o) <= L * D)%R.
Proof. intros HB (e & Ee & _ & Hw). destruct (near_data r m e B HB Hw) as (K & L & HK & HL & H). destruct (near_dot (nth i (entries2 e) [])) as (C & HC & HN).
  exists (C * L)%R. split; [apply Rmult_le_pos; auto|]. intros D q q' u HD Hq Hq' I I' Iu Hd. unfold opval. rewrite Ee.
  assert (E : forall x, vget (matvec (entries2 e) x) i = dot (nth i (entries2 e) []) x).
  { intros x. unfold vget, matvec. assert (E0 : dot [] x = 0%R) by reflexivity. rewrite <- E0. apply (map_nth (fun row => dot row x)). }
  rewrite !E. destruct (HN K (L * D)%R _ _ HK (Rmult_le_pos _ _ HL HD) (H D q q' u HD Hq Hq' I I' Iu Hd)) as (_ & _ & N3). rewrite Rmult_assoc. exact N3. Qed.
Lemma near_sum r m l B i : (0 <= B)%R -> Forall (sized r m) l -> exists L, (0 <= L)%R /\ forall D q q' u, (0 <= D)%R -> is_vec r q -> is_vec r q' -> inside B q -> inside B q' -> inside B u ->
  (forall k, k < r -> (Rabs (vget q k - vget q' k) <= D)%R) -> (Rabs (lsum (map (opval q u i) l) - lsum (map (opval q' u i) l)) <= L * D)%R.
Proof. intros HB. induction 1 as [|o l Ho Hl (L & HL & IH)].
  - exists 0%R. split; [lra|]. intros. cbn [map]. rewrite Rminus_diag_eq, Rabs_R0 by reflexivity. lra.
  - destruct (near_val r m o B i HB Ho) as (L1 & HL1 & H1). exists (L1 + L)%R. split; [lra|]. intros D q q' u HD Hq Hq' I I' Iu Hd. cbn [map]. rewrite !lsum_cons.
    replace (opval q u i o + lsum (map (opval q u i) l) - (opval q' u i o + lsum (map (opval q' u i) l)))%R
      with ((opval q u i o - opval q' u i o) + (lsum (map (opval q u i) l) - lsum (map (opval q' u i) l)))%R by ring.
    eapply Rle_trans; [apply Rabs_triang|]. rewrite Rmult_plus_distr_r. apply Rplus_le_compat; auto. Qed.
Lemma near_all r m l B : (0 <= B)%R -> Forall (sized r m) l -> forall n, exists L, (0 <= L)%R /\ forall i, i < n -> forall D q q' u, (0 <= D)%R -> is_vec r q -> is_vec r q' -> inside B q -> inside B q' -> inside B u ->
  (forall k, k < r -> (Rabs (vget q k - vget q' k) <= D)%R) -> (Rabs (lsum (map (opval q u i) l) - lsum (map (opval q' u i) l)) <= L * D)%R.
Proof. intros HB Hl. induction n as [|n (L & HL & IH)].
  - exists 0%R. split; [lra|]. intros; lia.
  - destruct (near_sum r m l B n HB Hl) as (L1 & HL1 & H1). exists (L + L1)%R. split; [lra|]. intros i Hi D q q' u HD Hq Hq' I I' Iu Hd.
    assert (P1 := Rmult_le_pos _ _ HL HD). assert (P2 := Rmult_le_pos _ _ HL1 HD). rewrite Rmult_plus_distr_r.
    destruct (Nat.eq_dec i n) as [->|Hne].
    + assert (H := H1 D q q' u HD Hq Hq' I I' Iu Hd). lra.
    + assert (Hi' : i < n) by lia. assert (H := IH i Hi' D q q' u HD Hq Hq' I I' Iu Hd). lra. Qed.

(* ---- the velocity in terms of the operators' entries ---- *)
Lemma vel_val X d r : SpecMono.trained X d r -> exists m, 0 < m /\ Forall (sized r m) (m_ops d) /\ forall u, input_for d u -> exists u', is_vec m u' /\ ((m_hasin d = true /\ u = Some u') \/ u' = repeat 0%R m) /\
  forall q v i, is_vec r q -> velocity d r q u v -> i < r -> vget v i = lsum (map (opval q u' i) (m_ops d)).
Proof. intros HT. destruct (tr_inv X d r HT) as (HM & H1 & H2). destruct (trained_dims X d HM H1) as (r' & m & Hr & Hm & Er & Em & Em0 & HF).
  rewrite H2 in Er. injection Er as <-. exists m. split; auto. split; auto. intros u HU. assert (HI := mi_s X d HM).
  assert (Hex : exists u', is_vec m u' /\ ((m_hasin d = true /\ u = Some u') \/ u' = repeat 0%R m) /\ forall o, In o (m_ops d) -> takes_input o = true -> option_map V u = Some (V u')).
  { destruct (m_hasin d) eqn:Eh.
    - destruct (HU Eh) as (m' & u' & E1 & E2 & E3). rewrite Em in E1 by auto. injection E1 as <-. exists u'. split; auto. split; auto. intros; subst u; reflexivity.
    - exists (repeat 0%R m). split; [apply repeat_length|]. split; auto. intros o Ho Ht. assert (Hx := sinv_takes d o HI Ho Ht). congruence. }
  destruct Hex as (u' & Hu' & Hd & Hin). exists u'. split; auto. split; auto. intros q v i Hq (Hv & ys & HL & Hval) Hi.
  destruct (rhs_value r m d q u' (option_map V u) Hr Hm HF Hq Hu' Hin) as (w & Ew & Hw & Hwv).
  destruct (sum_apply_list r _ _ _ _ HL (map (fun _ => 0%R) q)) as (w' & Ew' & Hw' & Hwv'). { unfold is_vec. rewrite map_length. auto. }
  unfold rhs in Ew. cbn [emap] in Ew. rewrite Ew' in Ew. injection Ew as ->. rewrite <- Hwv, Hwv', Hval by auto.
  assert (E0 : vget (map (fun _ => 0%R) q) i = 0%R). { unfold vget. rewrite (nth_map_in (fun _ => 0%R) q i 0%R 0%R); auto. unfold is_vec in Hq. lia. }
  rewrite E0. ring. Qed.

Lemma bounded_path r (y : R -> vec) a b : (a <= b)%R -> (forall t, (a <= t <= b)%R -> is_vec r (y t)) -> (forall t i, (a <= t <= b)%R -> i < r -> continuity_pt (fun s => vget (y s) i) t) ->
  exists B, (0 <= B)%R /\ forall t, (a <= t <= b)%R -> inside B (y t).
Proof. intros Hab Hv Hc. assert (H : forall n, n <= r -> exists B, (0 <= B)%R /\ forall t i, (a <= t <= b)%R -> i < n -> (Rabs (vget (y t) i) <= B)%R).
  { induction n as [|n IH]; intros Hn; [exists 0%R; split; [lra|]; intros; lia|]. destruct IH as (B & HB & IH); [lia|].
    destruct (continuity_ab_maj (fun s => Rabs (vget (y s) n)) a b Hab) as (x & Hx & _).
    { intros c Hcc. apply (continuity_pt_comp (fun s => vget (y s) n) Rabs); [apply Hc; auto; lia|apply Rcontinuity_abs]. }
    exists (B + Rabs (vget (y x) n))%R. assert (P := Rabs_pos (vget (y x) n)). split; [lra|]. intros t i Ht Hi. destruct (Nat.eq_dec i n) as [->|Hne].
    - specialize (Hx t Ht). lra.
    - assert (Hi' : i < n) by lia. specialize (IH t i Ht Hi'). lra. }
  destruct (H r (Nat.le_refl r)) as (B & HB & HH). exists B. split; auto. intros t Ht i. destruct (Nat.lt_ge_cases i r) as [Hi|Hi]; auto.
  specialize (Hv t Ht). unfold vget. rewrite nth_overflow by (unfold is_vec in Hv; lia). rewrite Rabs_R0. auto. Qed.

Lemma gap_0 r q q' : is_vec r q -> is_vec r q' -> (gap r q q' <= 0)%R -> q = q'.
Proof. intros Hq Hq' H. apply (vec_ext r); auto. intros i Hi. assert (P : forall i, i < r -> (0 <= Rsqr (vget q i - vget q' i))%R) by (intros; apply Rle_0_sqr).
  assert (E : gap r q q' = 0%R) by (assert (Q := bsum_nonneg r _ P); unfold gap in *; lra). assert (Z := bsum_nonneg_0 r _ P E i Hi). apply Rsqr_0_uniq in Z. lra. Qed.

(* two trajectories with the same input do not separate faster than exponentially *)
Lemma trajectories_gap X d r U a b q0 q1 y z : SpecMono.trained X d r -> (a <= b)%R -> (forall t, (a <= t <= b)%R -> input_for d (U t)) -> bounded_signal U a b ->
  trajectory d r U a b q0 y -> trajectory d r U a b q1 z -> exists L, forall t, (a <= t <= b)%R -> (gap r (y t) (z t) <= gap r q0 q1 * exp (L * (t - a)))%R.
Proof. intros HT Hab HU (BU & HB) (Y0 & Y1 & Y2 & Y3) (Z0 & Z1 & Z2 & Z3). destruct (vel_val X d r HT) as (m & Hm & HF & HV).
  destruct (bounded_path r y a b Hab Y1 Y2) as (By & Py & Iy). destruct (bounded_path r z a b Hab Z1 Z2) as (Bz & Pz & Iz).
  set (B := (By + Bz + Rabs BU)%R). assert (PB := Rabs_pos BU). assert (HB0 : (0 <= B)%R) by (unfold B; lra).
  destruct (near_all r m (m_ops d) B HB0 HF r) as (L & HL & HN). exists (2 * INR r * L)%R.
  assert (W : forall q B', (B' <= B)%R -> inside B' q -> inside B q) by (intros q B' H1 H2 i; specialize (H2 i); lra).
  intros t Ht. rewrite <- Y0, <- Z0. apply (gronwall (fun s => gap r (y s) (z s)) (2 * INR r * L) a t); [lra| |].
  - intros s Hs. unfold gap. assert (HC : forall n, n <= r -> continuity_pt (fun s0 => bsum n (fun i => Rsqr (vget (y s0) i - vget (z s0) i))) s).
    { induction n as [|n IH]; intros Hn; [apply derivable_continuous_pt, derivable_pt_const|]. cbn [bsum].
      apply (continuity_pt_plus (fun s0 => bsum n (fun i => Rsqr (vget (y s0) i - vget (z s0) i))) (fun s0 => Rsqr (vget (y s0) n - vget (z s0) n))); [apply IH; lia|].
      unfold Rsqr. assert (D : continuity_pt (fun s0 => (vget (y s0) n - vget (z s0) n)%R) s) by (apply (continuity_pt_minus (fun s0 => vget (y s0) n) (fun s0 => vget (z s0) n)); [apply Y2|apply Z2]; first [lia|lra]).
      apply (continuity_pt_mult _ _ s D D). }
    apply HC. lia.
  - intros s Hs. assert (Hs1 : (a <= s <= b)%R) by lra. assert (Hs2 : (a < s < b)%R) by lra. destruct (Y3 s Hs2) as (v & Hv & Dv). destruct (Z3 s Hs2) as (w & Hw & Dw).
    exists (bsum r (fun i => (2 * (vget (y s) i - vget (z s) i) * (vget v i - vget w i))%R)). split.
    + unfold gap. apply (deriv_bsum r (fun i s0 => Rsqr (vget (y s0) i - vget (z s0) i)) (fun i => (2 * (vget (y s) i - vget (z s) i) * (vget v i - vget w i))%R)). intros i Hi. unfold Rsqr.
      assert (D : derivable_pt_lim (fun s0 => (vget (y s0) i - vget (z s0) i)%R) s (vget v i - vget w i)%R) by (apply (derivable_pt_lim_minus (fun s0 => vget (y s0) i) (fun s0 => vget (z s0) i)); auto).
      replace (2 * (vget (y s) i - vget (z s) i) * (vget v i - vget w i))%R with ((vget v i - vget w i) * (vget (y s) i - vget (z s) i) + (vget (y s) i - vget (z s) i) * (vget v i - vget w i))%R by ring.
      apply (derivable_pt_lim_mult _ _ s _ _ D D).
    + set (g := gap r (y s) (z s)). assert (Pt : forall i, i < r -> (0 <= Rsqr (vget (y s) i - vget (z s) i))%R) by (intros; apply Rle_0_sqr).
      assert (Pg : (0 <= g)%R) by (apply bsum_nonneg; auto).
      assert (HD : forall i, i < r -> (Rabs (vget (y s) i - vget (z s) i) <= sqrt g)%R).
      { intros i Hi. rewrite <- sqrt_Rsqr_abs. apply sqrt_le_1; auto. apply (bsum_term r (fun i => Rsqr (vget (y s) i - vget (z s) i))); auto. }
      destruct (HV (U s) (HU s Hs1)) as (u' & Hu' & Hd & Hval).
      assert (Iu : inside B u').
      { intros i. destruct Hd as [(_ & E)| ->].
        - assert (H := HB s u' i Hs1 E). assert (K := Rle_abs BU). unfold B. lra.
        - unfold vget. rewrite nth_repeat, Rabs_R0. auto. }
      replace (2 * INR r * L * g)%R with (bsum r (fun _ => (2 * (sqrt g * (L * sqrt g)))%R)) by (rewrite bsum_const; replace (2 * (sqrt g * (L * sqrt g)))%R with (2 * L * (sqrt g * sqrt g))%R by ring; rewrite sqrt_sqrt by auto; ring).
      apply bsum_le. intros i Hi. rewrite Rmult_assoc. apply Rmult_le_compat_l; [lra|].
      eapply Rle_trans; [apply Rle_abs|]. rewrite Rabs_mult. apply Rmult_le_compat; try apply Rabs_pos; auto.
      rewrite (Hval (y s) v i), (Hval (z s) w i) by auto. apply HN; auto; [apply sqrt_pos|apply (W _ By); auto; unfold B; lra|apply (W _ Bz); auto; unfold B; lra]. Qed.
Lemma trajectory_unique X d r U a b q0 y z : SpecMono.trained X d r -> (forall t, (a <= t <= b)%R -> input_for d (U t)) -> bounded_signal U a b ->
  trajectory d r U a b q0 y -> trajectory d r U a b q0 z -> forall t, (a <= t <= b)%R -> y t = z t.
Proof. intros HT HU HB HY HZ t Ht. destruct (trajectories_gap X d r U a b q0 q0 y z) as (L & H); auto; [lra|]. specialize (H t Ht).
  apply (gap_0 r); [apply HY; auto|apply HZ; auto|]. replace (gap r q0 q0) with 0%R in H; [rewrite Rmult_0_l in H; exact H|].
  symmetry. unfold gap. apply bsum_0. intros i _. rewrite Rminus_diag_eq by reflexivity. apply Rsqr_0. Qed.

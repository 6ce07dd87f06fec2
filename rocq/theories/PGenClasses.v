(* PGenClasses.v -- the affine and the interpolated operators over any lawful class are lawful. *)
From Coq Require Import ZArith String.
From Verif Require Import LinAlg MatAlg BlockAlg TupleFinal OpsProofs AffProofs InterpProofs PolyOpProofs MonoLists MonoPredict ParaOps ParaVals LiftProofs JacProofs PGenProofs.
From Verif Require Export PGenFlat.
#[local] Open Scope nat_scope.
#[local] Open Scope list_scope.

Lemma vget_spread n w th d l b : l < n -> b < w -> vget (spread n w th d) (l * w + b) = (th l * vget d b)%R.
Proof. intros Hl Hb. unfold spread. rewrite vget_tab by nia. rewrite Nat.div_add_l by lia. rewrite Nat.div_small, Nat.add_0_r by auto.
  rewrite Nat.add_comm, Nat.mod_add by lia. rewrite Nat.mod_small by auto. reflexivity. Qed.
Lemma split_ix n w b : b < n * w -> exists l b', l < n /\ b' < w /\ b = l * w + b'.
Proof. intros H. assert (w <> 0) by nia. exists (b / w), (b mod w). split; [apply Nat.div_lt_upper_bound; lia|]. split; [apply Nat.mod_upper_bound; auto|].
  rewrite Nat.mul_comm. apply Nat.div_mod. auto. Qed.

(* ---- entries as a row of n blocks ------------------------------------------------------------------------------------------------- *)
Lemma blocks_Forall r w Es : blocks r (map (fun _ => w) Es) Es -> Forall (is_mat r w) Es.
Proof. induction Es; intros H; inversion H; subst; constructor; auto. Qed.
Lemma split_ok r w n E : 0 < r -> 0 < n -> is_mat r (n * w) E -> exists Es, np_split n E = Ok Es /\ length Es = n /\ Forall (is_mat r w) Es /\ hstack Es = E /\
  forall l i b, l < n -> i < r -> b < w -> mget (nth l Es []) i b = mget E i (l * w + b).
Proof. intros Hr Hn HE. destruct (split_blocks r w n E Hr Hn HE) as (Es & L & HB & HS). assert (Hne : Es <> []) by (intros ->; cbn in L; lia).
  assert (HN := np_split_hstack r w Es Hr Hne HB). rewrite L, HS in HN. exists Es. split; auto. split; auto. split; [apply blocks_Forall; auto|]. split; auto.
  intros l i b Hl Hi Hb. unfold np_split in HN. destruct (n =? 0); [discriminate|]. destruct (negb _); [discriminate|]. injection HN as <-.
  rewrite (ncols_is_mat r (n * w) E HE Hr), (Nat.mul_comm n w), Nat.div_mul by lia.
  rewrite (nth_indep _ [] (mcols (0 * w) (0 * w + w) E)) by (rewrite map_length, seq_length; auto).
  rewrite (map_nth (fun k => mcols (k * w) (k * w + w) E)), seq_nth by auto. cbn [Nat.add].
  rewrite (mget_mcols r (n * w)) by (auto; lia). reflexivity. Qed.
Lemma mapM_set r w (set : mat -> res mat) Es : (forall E, is_mat r w E -> set E = Ok E) -> Forall (is_mat r w) Es -> mapM set Es = Ok Es.
Proof. intros H. induction 1 as [|E Es HE HF IH]; auto. cbn [mapM]. rewrite H by auto. cbn [bind]. rewrite IH. reflexivity. Qed.

(* a combination of the blocks *)
Lemma comb_term r m c g n E A th q u i : lawful r m c g -> i < r ->
  (forall b, b < fst g -> mget A i b = bsum n (fun l => (th l * mget E i (l * fst g + b))%R)) ->
  term g A q u i = yterm (n * fst g) E (spread n (fst g) th (snd g q u)) i.
Proof. intros HL Hi HA. unfold term, yterm. rewrite bsum_mul.
  rewrite (bsum_ext n _ (fun l => bsum (fst g) (fun b => (th l * mget E i (l * fst g + b) * vget (snd g q u) b)%R))).
  - rewrite bsum_swap. apply bsum_ext. intros b Hb. rewrite HA by auto. rewrite <- bsum_scal_r. reflexivity.
  - intros l Hl. apply bsum_ext. intros b Hb. rewrite vget_spread by auto. ring. Qed.

Lemma inputs_for_len c mus oUs : length oUs = length mus -> length (inputs_for c mus oUs) = length mus.
Proof. intros H. unfold inputs_for. destruct (oc_inputs c); auto. apply map_length. Qed.
Lemma inputs_for_ok c mus oUs (Us : list mat) : (oc_inputs c = true -> oUs = map (fun U => Some (M U)) Us) -> oc_inputs c = true -> inputs_for c mus oUs = map (fun U => Some (M U)) Us.
Proof. intros H Hc. unfold inputs_for. rewrite Hc. auto. Qed.

(* ---- affine -------------------------------------------------------------------------------------------------------------------------- *)
Lemma vstack_scaled w k D th : is_mat w k D -> is_mat (length th * w) k (vstack (map (fun t => mscale t D) th)) /\
  forall l b j, l < length th -> b < w -> mget (vstack (map (fun t => mscale t D) th)) (l * w + b) j = (vget th l * mget D b j)%R.
Proof. intros HD. split.
  - assert (H := is_mat_vstack k _ _ (mscale_blocks k w D th HD)). rewrite lsumn_const in H. exact H.
  - induction th as [|t th IH]; intros l b j Hl Hb; [cbn in Hl; lia|]. cbn [map vstack concat]. rewrite (mget_app w) by (apply (is_mat_mscale w k); auto).
    destruct l as [|l].
    + cbn [Nat.mul Nat.add]. destruct (Nat.ltb_spec b w); [|lia]. rewrite (mget_mscale w k) by auto. reflexivity.
    + destruct (Nat.ltb_spec (S l * w + b) w); [cbn in *; lia|]. replace (S l * w + b - w) with (l * w + b) by (cbn; lia). cbn [length] in Hl.
      change (concat (map (fun t => mscale t D) th)) with (vstack (map (fun t => mscale t D) th)). rewrite IH by lia. reflexivity. Qed.
Lemma aff_cols_ok r m c g n theta : lawful r m c g -> (forall mu th, theta mu = Ok th -> length th = n) ->
  forall ks mus Qs Us oUs cols, length ks = length mus -> trajectories r ks Qs -> trajectories m ks Us -> length oUs = length mus ->
  (oc_inputs c = true -> oUs = map (fun U => Some (M U)) Us) -> aff_cols c theta mus Qs oUs = Ok cols ->
  trajectories (n * fst g) ks cols /\ forall i j b, i < length ks -> j < nth i ks 0 -> b < n * fst g ->
    mget (traj cols i) b j = vget (spread n (fst g) (coefs theta (param mus i)) (snd g (colv r (traj Qs i) j) (colv m (traj Us i) j))) b.
Proof. intros HL Hth. induction ks as [|k ks IH]; intros mus Qs Us oUs cols Hl HQ HU HoU HI E.
  - destruct mus; [|discriminate]. cbn in E. injection E as <-. split; [constructor|]. intros; cbn in *; lia.
  - destruct mus as [|mu mus]; [discriminate|]. inversion HQ as [|? Q ? Qs0 [Hk HQ1] HQ2]; subst. inversion HU as [|? U ? Us0 [_ HU1] HU2]; subst. destruct oUs as [|oU oUs]; [discriminate|].
    assert (HI1 : oc_inputs c = true -> oU = Some (M U)) by (intros Hx; specialize (HI Hx); cbn in HI; congruence).
    assert (HI2 : oc_inputs c = true -> oUs = map (fun U => Some (M U)) Us0) by (intros Hx; specialize (HI Hx); cbn in HI; congruence).
    cbn [aff_cols] in E. destruct (lw_block _ _ _ _ HL k Q U oU Hk HQ1 HU1 HI1) as (B & EB & HB & Hb). rewrite EB in E. cbn [bind] in E.
    apply bind_ok in E. destruct E as (th & Eth & E). apply bind_ok in E. destruct E as (t & Et & E). injection E as <-.
    assert (HLt := Hth mu th Eth). destruct (vstack_scaled (fst g) k B th HB) as (S1 & S2). rewrite HLt in S1, S2.
    cbn [length] in Hl, HoU. destruct (IH mus Qs0 Us0 oUs t) as (T1 & T2); auto. split; [constructor; auto|].
    intros [|i] j b Hi Hj Hbb; cbn [length nth traj param] in *; [|apply T2; auto; lia].
    destruct (split_ix n (fst g) b Hbb) as (l & b' & Hl' & Hb' & ->). rewrite S2, vget_spread by auto. unfold coefs. cbn [param nth]. rewrite Eth. rewrite Hb by auto. reflexivity. Qed.

Lemma aff_plawful r m c g n theta : 0 < r -> 0 < n -> lawful r m c g -> (forall mu th, theta mu = Ok th -> length th = n) -> plawful r m (aff_cls c n theta) (aff_feature g n theta).
Proof. intros Hr Hn HL Hth. assert (Hw := lw_pos _ _ _ _ HL). constructor; cbn [yf_w yf_phi yf_psi yf_dom aff_feature pc_inputs pc_dim pc_block pc_set pc_eval pc_itp aff_cls].
  - intros. nia.
  - intros mus mm _ HI. rewrite (lw_dim _ _ _ _ HL) by auto. reflexivity.
  - intros mus ks Qs Us oUs Hne Hlk HQ HU HoU HI B E. apply bind_ok in E. destruct E as (cols & Ec & E).
    assert (HI' := inputs_for_ok c mus oUs Us HI). assert (Hlen := inputs_for_len c mus oUs HoU).
    destruct (aff_cols_ok r m c g n theta HL Hth ks mus Qs Us _ cols Hlk HQ HU Hlen HI' Ec) as (T1 & T2).
    assert (Hks : ks <> []) by (destruct ks; [destruct mus; [congruence|discriminate]|discriminate]).
    rewrite (hstack_r_ok (n * fst g) ks) in E by (auto using traj_blocks; eapply traj_ne; eauto). injection E as <-.
    split; [apply flat_shape; auto|]. intros i j b Hi Hj Hb. rewrite (mget_traj (n * fst g) ks) by (auto; lia). apply T2; auto; lia.
  - intros mus t E _ _ HE E' ES. apply bind_ok in ES. destruct ES as (Es & E1 & E2). injection E2 as <-. destruct (split_ok r (fst g) n E Hr Hn HE) as (Es0 & S1 & S2 & S3 & S4 & _).
    unfold split_set in E1. rewrite S1 in E1. cbn [bind] in E1. rewrite (mapM_set r (fst g)) in E1 by (auto; apply (lw_set _ _ _ _ HL)). congruence.
  - intros mus t E mu _ _ HE (th & Eth). destruct (split_ok r (fst g) n E Hr Hn HE) as (Es & S1 & S2 & S3 & _ & S5). assert (HLt := Hth mu th Eth).
    assert (Hne : Es <> []) by (intros ->; cbn in S2; lia). destruct (lincomb_ok r (fst g) th Es Hne ltac:(congruence) S3) as (L1 & L2).
    exists c, (lincomb th Es), g. rewrite S1. cbn [bind]. rewrite Eth. cbn [bind]. rewrite (lw_set _ _ _ _ HL) by auto. cbn [bind]. repeat (split; auto).
    intros q u i Hq Hu Hi. apply (comb_term r m c); auto. intros b Hb. rewrite L2, S2. apply bsum_ext. intros l Hl. rewrite S5 by auto. unfold coefs. rewrite Eth. reflexivity.
  - intros. reflexivity. Qed.

(* ---- interpolated ---------------------------------------------------------------------------------------------------------------------- *)
Lemma blockdiag2_get n1 n2 k1 k2 A B x y : 0 < n1 -> 0 < n2 -> is_mat n1 k1 A -> is_mat n2 k2 B -> mget (blockdiag2 A B) x y =
  if x <? n1 then (if y <? k1 then mget A x y else 0%R) else (if y <? k1 then 0%R else mget B (x - n1) (y - k1)).
Proof. intros H1 H2 HA HB. unfold blockdiag2. rewrite (is_mat_nrows _ _ _ HA), (is_mat_nrows _ _ _ HB), (ncols_is_mat _ _ _ HA), (ncols_is_mat _ _ _ HB) by auto.
  rewrite (mget_app n1) by (apply (is_mat_hcat n1 k1 k2); mt). destruct (Nat.ltb_spec x n1).
  - rewrite (mget_hcat n1 k1 k2) by mt. destruct (Nat.ltb y k1); auto. apply mget_mzeros.
  - rewrite (mget_hcat n2 k1 k2) by mt. destruct (Nat.ltb y k1); auto. apply mget_mzeros. Qed.
Lemma get_beyond n k A x y : is_mat n k A -> x < n -> k <= y -> mget A x y = 0%R.
Proof. intros [H1 H2] Hx Hy. unfold mget. apply nth_overflow. rewrite Forall_forall in H2. rewrite (H2 (nth x A [])) by (apply nth_In; lia). auto. Qed.
Lemma fold_diag w ks Ds : 0 < w -> trajectories w ks Ds -> forall n0 k0 A, 0 < n0 -> is_mat n0 k0 A ->
  is_mat (n0 + length ks * w) (k0 + lsumn ks) (fold_left blockdiag2 Ds A) /\
  (forall x y, x < n0 -> mget (fold_left blockdiag2 Ds A) x y = if y <? k0 then mget A x y else 0%R) /\
  (forall l b y, l < length ks -> b < w -> y < k0 -> mget (fold_left blockdiag2 Ds A) (n0 + (l * w + b)) y = 0%R) /\
  (forall l b i j, l < length ks -> b < w -> i < length ks -> j < nth i ks 0 ->
     mget (fold_left blockdiag2 Ds A) (n0 + (l * w + b)) (k0 + (start ks i + j)) = if l =? i then mget (traj Ds i) b j else 0%R).
Proof. intros Hw. induction 1 as [|k D ks Ds [Hk HD] HF IH]; intros n0 k0 A Hn HA.
  - cbn [fold_left length lsumn fold_right Nat.mul]. split; [rewrite !Nat.add_0_r; auto|]. split; [|split; intros; lia].
    intros x y Hx. destruct (Nat.ltb_spec y k0); auto. apply (get_beyond n0 k0); auto.
  - cbn [fold_left]. destruct (IH (n0 + w) (k0 + k) (blockdiag2 A D)) as (I1 & I2 & I3 & I4); [lia|apply blockdiag2_shape; auto|].
    change (lsumn (k :: ks)) with (k + lsumn ks). cbn [length]. split; [|split; [|split]].
    + replace (n0 + S (length ks) * w) with (n0 + w + length ks * w) by (cbn; lia). rewrite Nat.add_assoc. auto.
    + intros x y Hx. rewrite I2 by lia. rewrite (blockdiag2_get n0 w k0 k) by auto. destruct (Nat.ltb_spec x n0); [|lia]. destruct (Nat.ltb_spec y (k0 + k)), (Nat.ltb_spec y k0); auto; lia.
    + intros [|l] b y Hl Hb Hy.
      * cbn [Nat.mul Nat.add]. rewrite I2 by lia. rewrite (blockdiag2_get n0 w k0 k) by auto. destruct (Nat.ltb_spec y (k0 + k)); auto. destruct (Nat.ltb_spec (n0 + b) n0); [lia|].
        destruct (Nat.ltb_spec y k0); auto; lia.
      * replace (n0 + (S l * w + b)) with (n0 + w + (l * w + b)) by (cbn; lia). apply I3; lia.
    + assert (Hst : forall i, start (k :: ks) (S i) = k + start ks i) by reflexivity.
      intros [|l] b [|i] j Hl Hb Hi Hj; cbn [nth traj Nat.eqb] in *.
      * change (start (k :: ks) 0) with 0. cbn [Nat.mul Nat.add]. rewrite I2 by lia. rewrite (blockdiag2_get n0 w k0 k) by auto. destruct (Nat.ltb_spec (k0 + j) (k0 + k)); [|lia].
        destruct (Nat.ltb_spec (n0 + b) n0); [lia|]. destruct (Nat.ltb_spec (k0 + j) k0); [lia|]. f_equal; lia.
      * rewrite Hst. cbn [Nat.mul Nat.add]. rewrite I2 by lia. destruct (Nat.ltb_spec (k0 + (k + start ks i + j)) (k0 + k)); auto. lia.
      * change (start (k :: ks) 0) with 0. replace (n0 + (S l * w + b)) with (n0 + w + (l * w + b)) by (cbn; lia). apply I3; lia.
      * rewrite Hst. replace (n0 + (S l * w + b)) with (n0 + w + (l * w + b)) by (cbn; lia). replace (k0 + (k + start ks i + j)) with (k0 + k + (start ks i + j)) by lia. apply I4; lia. Qed.
Lemma block_diag_ok w ks Ds : 0 < w -> ks <> [] -> trajectories w ks Ds -> is_mat (length ks * w) (lsumn ks) (block_diag Ds) /\
  forall l b i j, l < length ks -> b < w -> i < length ks -> j < nth i ks 0 -> mget (block_diag Ds) (l * w + b) (start ks i + j) = if l =? i then mget (traj Ds i) b j else 0%R.
Proof. intros Hw Hks HT. destruct HT as [|k D ks Ds [Hk HD] HF]; [congruence|]. cbn [block_diag]. destruct (fold_diag w ks Ds Hw HF w k D Hw HD) as (I1 & I2 & I3 & I4).
  split; [exact I1|]. assert (Hst : forall i, start (k :: ks) (S i) = k + start ks i) by reflexivity.
  intros [|l] b [|i] j Hl Hb Hi Hj; cbn [nth traj Nat.eqb length] in *.
  - change (start (k :: ks) 0) with 0. cbn [Nat.mul Nat.add]. rewrite I2 by lia. destruct (Nat.ltb_spec j k); auto; lia.
  - rewrite Hst. cbn [Nat.mul Nat.add]. rewrite I2 by lia. destruct (Nat.ltb_spec (k + start ks i + j) k); auto; lia.
  - change (start (k :: ks) 0) with 0. replace (S l * w + b) with (w + (l * w + b)) by (cbn; lia). apply I3; lia.
  - rewrite Hst. replace (S l * w + b) with (w + (l * w + b)) by (cbn; lia). replace (k + start ks i + j) with (k + (start ks i + j)) by lia. apply I4; lia. Qed.

Lemma itp_plawful r m c g C dom ell : 0 < r -> lawful r m c g -> linear_interp C dom ell -> plawful r m (itp_cls c C) (itp_feature g dom ell).
Proof. intros Hr HL [HC1 HC2]. assert (Hw := lw_pos _ _ _ _ HL). constructor; cbn [yf_w yf_phi yf_psi yf_dom itp_feature pc_inputs pc_dim pc_block pc_set pc_eval pc_itp itp_cls].
  - intros mus Hm. destruct mus; [congruence|cbn [length]; nia].
  - intros mus mm _ HI. rewrite (lw_dim _ _ _ _ HL) by auto. reflexivity.
  - intros mus ks Qs Us oUs Hne Hlk HQ HU HoU HI B E. apply bind_ok in E. destruct E as (Ds & Ed & E). injection E as <-.
    assert (HI' := inputs_for_ok c mus oUs Us HI). assert (Hlen := inputs_for_len c mus oUs HoU). rewrite <- Hlk in Hlen.
    destruct (non_blocks_ok r m c g HL ks Qs Us _ HQ HU Hlen HI') as (Ds' & ED & HDs & Hv). rewrite ED in Ed. injection Ed as <-.
    assert (Hks : ks <> []) by (destruct ks; [destruct mus; [congruence|discriminate]|discriminate]).
    destruct (block_diag_ok (fst g) ks Ds' Hw Hks HDs) as (B1 & B2). rewrite <- Hlk. split; auto. intros i j b Hi Hj Hb.
    destruct (split_ix (length ks) (fst g) b Hb) as (l & b' & Hl & Hb' & ->). rewrite B2, vget_spread by auto. destruct (l =? i); [rewrite Hv by auto|]; ring.
  - intros mus t E Hm Ht HE E' ES. rewrite (Ht eq_refl) in ES. apply bind_ok in ES. destruct ES as (Es & E1 & E2). apply bind_ok in E2. destruct E2 as (f & _ & E2). injection E2 as <-.
    assert (Hn : 0 < length mus) by (destruct mus; [congruence|cbn; lia]). destruct (split_ok r (fst g) (length mus) E Hr Hn HE) as (Es0 & S1 & S2 & S3 & S4 & _).
    unfold split_set in E1. rewrite S1 in E1. cbn [bind] in E1. rewrite (mapM_set r (fst g)) in E1 by (auto; apply (lw_set _ _ _ _ HL)). congruence.
  - intros mus t E mu Hm Ht HE Hdom. rewrite (Ht eq_refl). assert (Hn : 0 < length mus) by (destruct mus; [congruence|cbn; lia]).
    destruct (split_ok r (fst g) (length mus) E Hr Hn HE) as (Es & S1 & S2 & S3 & _ & S5).
    destruct (HC1 r (fst g) mus mu Es Hm Hdom S2 S3) as (f & A & F1 & F2 & F3 & F4). exists c, A, g. rewrite S1. cbn [bind]. rewrite F1. cbn [bind]. rewrite F2. cbn [bind].
    rewrite (lw_set _ _ _ _ HL) by auto. cbn [bind]. repeat (split; auto). intros q u i Hq Hu Hi. apply (comb_term r m c); auto. intros b Hb. rewrite F4 by auto.
    apply bsum_ext. intros l Hl. rewrite S5 by auto. reflexivity.
  - intros mus i q u b Hi Hdom Hq Hu Hb. destruct (split_ix (length mus) (fst g) b Hb) as (l & b' & Hl & Hb' & ->). rewrite !vget_spread by auto. rewrite HC2 by auto. reflexivity. Qed.

(* interpolation that is only known to reproduce the data *)
Lemma exact_linear C good : exact_interp C good -> linear_interp C (one_of_them good) one_hot.
Proof. intros H.
  assert (HD : forall mus i l, NoDup mus -> i < length mus -> l < length mus -> one_hot mus (param mus i) l = if l =? i then 1%R else 0%R).
  { intros mus i l Hnd Hi Hl. unfold one_hot, param. destruct (Nat.eqb_spec l i) as [->|Hne]; [destruct (pval_dec _ _); [reflexivity|congruence]|].
    destruct (pval_dec _ _) as [e|]; [|reflexivity]. exfalso. apply Hne. apply (proj1 (NoDup_nth mus (PS 0%R)) Hnd); auto. }
  constructor.
  - intros r w mus mu es Hm (Hg & Hnd & Hin) Hlen HF. destruct (H r w mus es Hm Hg Hlen HF) as (f & E1 & E2).
    destruct (In_nth mus mu (PS 0%R) Hin) as (i & Hi & Ei). exists f, (nth i es []). split; auto. split; [rewrite <- Ei; apply E2; auto|].
    split; [apply (proj1 (Forall_nth (is_mat r w) es) HF i []); lia|]. intros a b Ha Hb. rewrite <- Ei. fold (param mus i).
    rewrite (bsum_ext _ _ (fun l => (EckartYoung.dlt l i * mget (nth l es []) a b)%R)).
    + rewrite (EckartYoung.bsum_dlt _ i (fun l => mget (nth l es []) a b)) by auto. reflexivity.
    + intros l Hl. rewrite HD by auto. reflexivity.
  - intros mus i l Hi Hl (_ & Hnd & _). apply HD; auto. Qed.
Lemma theta_id_len p mu th : theta_id p mu = Ok th -> length th = p.
Proof. unfold theta_id. destruct (Nat.eqb_spec (plen mu) p) as [<-|]; [|discriminate]. intros [= <-]. destruct mu; reflexivity. Qed.
Lemma exact_plawful r m c g C good : 0 < r -> lawful r m c g -> exact_interp C good -> plawful r m (itp_cls c C) (itp_feature g (one_of_them good) one_hot).
Proof. intros. apply itp_plawful; auto. apply exact_linear. auto. Qed.
Lemma identity_plawful r m c g p : 0 < r -> 0 < p -> lawful r m c g -> plawful r m (aff_cls c p (theta_id p)) (aff_feature g p (theta_id p)).
Proof. intros. apply aff_plawful; auto. apply theta_id_len. Qed.

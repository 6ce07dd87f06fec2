(* RomLift.v -- the polynomial and quadratic lifters as parts of a reduced-order model. *)
From Verif Require Import LinAlg MatAlg PreProofs PreLocs PreFinal LiftProofs AffProofs BasisProofs BasisMultiProofs SpecRom RomParts.
From Coq Require Import Lra Lia Psatz.
#[local] Open Scope nat_scope.

Definition amap (f : R -> R) (a : arr) : arr := match a with V v => V (map f v) | M m => M (map (map f) m) end.
Definition amap2 (f : R -> R -> R) (a d : arr) : arr := match a, d with V u, V v => V (map2 f u v) | M A, M B => M (map2 (map2 f) A B) | _, _ => a end.
Lemma amap_ok n k f a : shaped n k a -> shaped n k (amap f a) /\ same_kind a (amap f a) /\ forall i j, i < n -> j < k -> aget (amap f a) i j = f (aget a i j).
Proof.
  destruct a as [v|A]; cbn [shaped amap same_kind aget].
  - intros [Hv ->]. unfold is_vec in *. rewrite map_length. repeat split; auto. intros i j Hi _. unfold vget. now rewrite (nth_map_in _ v i 0%R 0%R) by lia.
  - intros [H1 H2]. split; [|split; auto].
    + split; [now rewrite map_length|]. rewrite Forall_forall in *. intros x Hx. apply in_map_iff in Hx. destruct Hx as (y & <- & Hy). rewrite map_length. auto.
    + intros i j Hi Hj. unfold mget. rewrite (nth_map_in _ A i [] []) by lia.
      rewrite Forall_forall in H2. assert (length (nth i A []) = k) by (apply H2, nth_In; lia). now rewrite (nth_map_in _ (nth i A []) j 0%R 0%R) by lia.
Qed.
Lemma amap2_ok n k f a d : shaped n k a -> shaped n k d -> same_kind a d -> shaped n k (amap2 f a d) /\ same_kind a (amap2 f a d) /\
  forall i j, i < n -> j < k -> aget (amap2 f a d) i j = f (aget a i j) (aget d i j).
Proof.
  destruct a as [u|A], d as [v|B]; cbn [shaped amap2 same_kind aget]; try tauto.
  - intros [Hu ->] [Hv _] _. unfold is_vec in *. rewrite map2_length. repeat split; auto; [lia|]. intros i j Hi _. unfold vget. now rewrite (map2_nth _ u v i 0%R 0%R 0%R) by lia.
  - intros [H1 H2] [H3 H4] _. rewrite Forall_forall in H2, H4. assert (HL : forall i, i < n -> length (nth i A []) = k /\ length (nth i B []) = k) by (intros i Hi; split; [apply H2|apply H4]; apply nth_In; lia).
    split; [|split; auto].
    + split; [rewrite map2_length; lia|]. apply Forall_forall. intros x Hx. apply (In_nth _ _ []) in Hx. destruct Hx as (i & Hi & <-). rewrite map2_length in Hi.
      rewrite (map2_nth _ A B i [] [] []) by lia. rewrite map2_length. destruct (HL i ltac:(lia)). lia.
    + intros i j Hi Hj. unfold mget. rewrite (map2_nth _ A B i [] [] []) by lia. destruct (HL i Hi). now rewrite (map2_nth _ _ _ j 0%R 0%R 0%R) by lia.
Qed.
Lemma all_finite_finite a : all_finite (finite a) = Ok a.
Proof.
  assert (E : forall v : vec, mapM (fun x => match x with F y => Ok y | _ => Err OtherError end) (map F v) = Ok v).
  { induction v as [|x v IH]; cbn [map mapM]; [reflexivity|]. cbn [bind]. rewrite IH. reflexivity. }
  destruct a as [v|A]; cbn [finite all_finite]. { now rewrite E. }
  assert (E2 : mapM (mapM (fun x => match x with F y => Ok y | _ => Err OtherError end)) (map (map F) A) = Ok A).
  { induction A as [|x A IH]; cbn [map mapM]; [reflexivity|]. rewrite E. cbn [bind]. rewrite IH. reflexivity. }
  now rewrite E2.
Qed.
Lemma hd_len n k (A : mat) : is_mat n k A -> length (hd [] (map (map F) A)) = if n =? 0 then 0 else k.
Proof. intros [H1 H2]. destruct A as [|x A]; cbn in *. { now subst n. } inversion H2; subst. now rewrite map_length. Qed.
Lemma finite_append n m k a b q : shaped n k a -> shaped m k b -> (n = 0 <-> m = 0) -> aconcat [a; b] = Ok q -> nappend (finite a) (finite b) = Ok (finite q).
Proof.
  destruct a as [u|A], b as [v|B]; cbn [shaped]; intros Ha Hb Hnm E; try discriminate.
  - cbn in E. injection E as <-. cbn [finite nappend]. rewrite app_nil_r, map_app. reflexivity.
  - cbn in E. injection E as <-. cbn [finite nappend]. rewrite (hd_len n k A Ha), (hd_len m k B Hb).
    assert (Eb : (if n =? 0 then 0 else k) = (if m =? 0 then 0 else k)) by (destruct (Nat.eqb_spec n 0), (Nat.eqb_spec m 0); auto; tauto).
    rewrite Eb, Nat.eqb_refl, app_nil_r, map_app. reflexivity.
Qed.
Lemma lsumn_repeat n m : lsumn (repeat n m) = m * n. Proof. induction m as [|m IH]; [reflexivity|]. cbn [repeat lsumn fold_right]. unfold lsumn in IH. rewrite IH. reflexivity. Qed.
(* blocks of the same size, one above the other *)
Lemma finite_concat n k a ys : ys <> [] -> Forall (fun y => shaped n k y /\ same_kind a y) ys ->
  exists q, nconcat (map finite ys) = Ok (finite q) /\ shaped (length ys * n) k q /\ same_kind a q /\
    forall c i j, c < length ys -> i < n -> aget q (c * n + i) j = aget (nth c ys (V [])) i j.
Proof.
  intros Hne HF. assert (H2 : Forall2 (fun r y => shaped r k y /\ same_kind a y) (repeat n (length ys)) ys).
  { clear Hne. induction HF; cbn; constructor; auto. }
  assert (Hne' : repeat n (length ys) <> []) by (destruct ys; [congruence|discriminate]).
  destruct (concat_shaped _ k a ys Hne' H2) as (q & E & Sq & Kq & Sp). exists q. rewrite lsumn_repeat in Sq. split; [|split; auto; split; auto].
  - clear H2 Hne' Sp Sq Kq. revert q E. induction HF as [|y ys [Sy Ky] HF IH]; intros q E; [congruence|].
    destruct ys as [|y2 ys]. { cbn [map nconcat]. destruct y; cbn in E; injection E as <-; cbn [finite]; now rewrite app_nil_r. }
    specialize (IH ltac:(discriminate)).
    destruct (concat_shaped (repeat n (length (y2 :: ys))) k a (y2 :: ys)) as (q2 & E2 & Sq2 & _ & _); [discriminate| |].
    { clear -HF. induction HF; cbn; constructor; auto. }
    change (nconcat (map finite (y :: y2 :: ys))) with (do b <- nconcat (map finite (y2 :: ys)); nappend (finite y) b). rewrite (IH q2 E2). cbn [bind].
    rewrite lsumn_repeat in Sq2. apply (finite_append n (length (y2 :: ys) * n) k); auto. { cbn [length]. lia. }
    rewrite <- E. clear -E2. destruct y as [u|A], y2 as [v|B]; cbn [aconcat a_isV a_isM] in *; try (destruct (allsome _); discriminate).
    all: cbn [map allsome a_isV a_isM] in *.
    + destruct (allsome (map a_isV ys)) as [vs|] eqn:F; [|discriminate]. injection E2 as <-. cbn. now rewrite app_nil_r.
    + destruct (allsome (map a_isM ys)) as [vs|] eqn:F; [|discriminate]. injection E2 as <-. cbn. reflexivity.
    + destruct (allsome (map a_isV ys)) as [vs|] eqn:F; [|discriminate]. injection E2 as <-. cbn. reflexivity.
    + destruct (allsome (map a_isM ys)) as [vs|] eqn:F; [|discriminate]. injection E2 as <-. cbn. now rewrite app_nil_r.
  - intros c i j Hc Hi. rewrite <- Sp. rewrite var_rows_nth by now rewrite repeat_length.
    assert (En : nth c (repeat n (length ys)) 0 = n) by (rewrite (nth_indep _ 0 n) by (now rewrite repeat_length); apply nth_repeat).
    rewrite aget_var_rows; [|now rewrite repeat_length|now rewrite En]. f_equal. f_equal.
    replace (firstn c (repeat n (length ys))) with (repeat n c). { symmetry. apply lsumn_repeat. }
    clear -Hc. revert c Hc. generalize (length ys). intros m. induction m as [|m IH]; intros c Hc; [lia|]. destruct c; cbn; auto. f_equal. apply IH. lia.
Qed.

(* ---- lift --------------------------------------------------------------------------------------------------------------- *)
Lemma nmap_pow m a : nmap (fun x => npow x (INR m)) (finite a) = finite (amap (fun x => x ^ m)%R a).
Proof.
  assert (E : forall v : vec, map (fun x => npow x (INR m)) (map F v) = map F (map (fun x => x ^ m)%R v)).
  { intros v. rewrite !map_map. apply map_ext. intros x. apply npow_nat. }
  destruct a as [v|A]; cbn [nmap finite amap]; f_equal; auto. rewrite !map_map. apply map_ext. intros v. apply E.
Qed.
Lemma nth_map_default {A B} (f : A -> B) l d i : nth i (map f l) (f d) = f (nth i l d). Proof. apply map_nth. Qed.
Lemma poly_lift_form n k ns a : ns <> [] -> shaped n k a -> exists L, lf_lift (poly_lifter (map INR ns)) a = Ok L /\ shaped (length ns * n) k L /\ same_kind a L /\
  forall c i j, c < length ns -> i < n -> j < k -> aget L (c * n + i) j = (aget a i j ^ nth c ns 0%nat)%R.
Proof.
  intros Hne Ha. destruct (finite_concat n k a (map (fun m => amap (fun x => x ^ m)%R a) ns)) as (q & E & Sq & Kq & G).
  { destruct ns; [congruence|discriminate]. }
  { apply Forall_forall. intros y Hy. apply in_map_iff in Hy. destruct Hy as (m & <- & _). destruct (amap_ok n k (fun x => x ^ m)%R a Ha) as (H1 & H2 & _). auto. }
  rewrite map_length in *. exists q. split; [|split; auto; split; auto].
  - cbn [poly_lifter lf_lift]. unfold poly_lift. rewrite map_map in *. rewrite (map_ext _ (fun m => finite (amap (fun x => x ^ m)%R a))) by (intros m; apply nmap_pow). rewrite E. cbn [bind]. apply all_finite_finite.
  - intros c i j Hc Hi Hj. rewrite G by auto. rewrite (nth_map_in _ ns c (V []) 0) by auto. now apply (amap_ok n k).
Qed.
Lemma quad_lift_form n k a : shaped n k a -> lf_lift quad_lifter a = lf_lift (poly_lifter (map INR [1; 2])) a.
Proof.
  intros Ha. cbn [quad_lifter poly_lifter lf_lift]. unfold quad_lift, poly_lift. cbn [map nconcat bind]. f_equal. rewrite (nmap_pow 1). f_equal.
  - f_equal. destruct a as [v|A]; cbn [amap]; f_equal.
    + symmetry. rewrite <- (map_id v) at 2. apply map_ext. intros x. apply pow_1.
    + symmetry. rewrite <- (map_id A) at 2. apply map_ext. intros v. rewrite <- (map_id v) at 2. apply map_ext. intros x. apply pow_1.
Qed.
(* ---- lift_ddts ---------------------------------------------------------------------------------------------------------- *)
Lemma nmap2_ddt n k m a d : shaped n k a -> shaped n k d -> same_kind a d ->
  nmap2 nmult (nmap (fun x => nmult (F (INR (S m))) (npow x (INR (S m) - 1))) (finite a)) (finite d) = Ok (finite (amap2 (fun x y => INR (S m) * x ^ m * y)%R a d)).
Proof.
  assert (E0 : (INR (S m) - 1)%R = INR m) by (rewrite S_INR; ring). rewrite E0.
  assert (E : forall u v : vec, map2 nmult (map (fun x => nmult (F (INR (S m))) (npow x (INR m))) (map F u)) (map F v) = map F (map2 (fun x y => INR (S m) * x ^ m * y)%R u v)).
  { induction u as [|x u IH]; intros [|y v]; cbn [map map2]; auto. rewrite npow_nat. cbn [nmult]. now rewrite IH. }
  intros Ha Hd K. destruct a as [u|A], d as [v|B]; cbn [shaped same_kind] in *; try tauto; cbn [finite nmap nmap2 amap2].
  - destruct Ha as [Hu ->], Hd as [Hv _]. unfold is_vec in *. rewrite !map_length. rewrite (proj2 (Nat.eqb_eq _ _)) by congruence. now rewrite E.
  - rewrite !map_length. rewrite (proj2 (Nat.eqb_eq (length A) (length B))) by (destruct Ha, Hd; congruence). cbn [andb].
    replace (length (hd [] (map (map (fun x => nmult (F (INR (S m))) (npow x (INR m)))) (map (map F) A)))) with (length (hd [] (map (map F) A))).
    2:{ destruct A; cbn; auto. now rewrite !map_length. }
    rewrite (hd_len n k A Ha), (hd_len n k B Hd), Nat.eqb_refl. f_equal. f_equal. clear Ha Hd. revert B.
    induction A as [|x A IH]; intros [|y B]; cbn [map map2]; auto. now rewrite E, IH.
Qed.
Lemma poly_ddts_form n k ns a d : ns <> [] -> Forall (lt 0) ns -> shaped n k a -> shaped n k d -> same_kind a d ->
  exists D, lf_ddts (poly_lifter (map INR ns)) a d = Ok D /\ shaped (length ns * n) k D /\ same_kind a D /\
  forall c i j, c < length ns -> i < n -> j < k -> aget D (c * n + i) j = (INR (nth c ns 0%nat) * aget a i j ^ pred (nth c ns 0%nat) * aget d i j)%R.
Proof.
  intros Hne Hp Ha Hd K. set (f := fun m x y => (INR m * x ^ pred m * y)%R).
  destruct (finite_concat n k a (map (fun m => amap2 (f m) a d) ns)) as (q & E & Sq & Kq & G).
  { destruct ns; [congruence|discriminate]. }
  { apply Forall_forall. intros y Hy. apply in_map_iff in Hy. destruct Hy as (m & <- & _). destruct (amap2_ok n k (f m) a d Ha Hd K) as (H1 & H2 & _). auto. }
  rewrite map_length in *. exists q. split; [|split; auto; split; auto].
  - cbn [poly_lifter lf_ddts]. unfold poly_lift_ddts. rewrite map_map in E.
    assert (EM : mapM (fun p => nmap2 nmult (nmap (fun x => nmult (F p) (npow x (p - 1))) (finite a)) (finite d)) (map INR ns) = Ok (map (fun m => finite (amap2 (f m) a d)) ns)).
    { clear E G Hne Sq. induction Hp as [|m ns Hm Hp IH]; cbn [map mapM]; auto. destruct m as [|m]; [lia|].
      pose proof (nmap2_ddt n k m a d Ha Hd K) as EE. cbn [Nat.pred] in *. unfold f at 1. cbn [Nat.pred]. rewrite EE. cbn [bind]. rewrite IH. reflexivity. }
    rewrite EM. cbn [bind]. rewrite E. cbn [bind]. apply all_finite_finite.
  - intros c i j Hc Hi Hj. rewrite G by auto. rewrite (nth_map_in _ ns c (V []) 0) by auto. now apply (amap2_ok n k (f (nth c ns 0))).
Qed.
Lemma poly_derivative n k ns a d : ns <> [] -> Forall (lt 0) ns -> shaped n k a -> shaped n k d -> same_kind a d ->
  exists e, lf_ddts (poly_lifter (map INR ns)) a d = Ok e /\ derivative_along (lf_lift (poly_lifter (map INR ns))) a d (length ns * n) k e.
Proof.
  intros Hne Hp Ha Hd K. destruct (poly_ddts_form n k ns a d Hne Hp Ha Hd K) as (e & Ee & Se & Ke & Ge). exists e. split; auto.
  set (f := lf_lift (poly_lifter (map INR ns))).
  exists (fun h => match f (acomb a h d) with Ok y => y | Err _ => V [] end), 1%R. split; [lra|].
  assert (HH : forall h, exists L, f (acomb a h d) = Ok L /\ shaped (length ns * n) k L /\ same_kind a L /\
    forall c i j, c < length ns -> i < n -> j < k -> aget L (c * n + i) j = ((aget a i j + h * aget d i j) ^ nth c ns 0%nat)%R).
  { intros h. destruct (shaped_acomb n k a h d Ha Hd K) as [Sc Kc]. destruct (poly_lift_form n k ns _ Hne Sc) as (L & E & S1 & K1 & G). exists L. repeat split; auto.
    - eapply same_kind_trans; eauto. - intros c i j Hc Hi Hj. rewrite G by auto. now rewrite (aget_acomb n k). }
  split; [|split; auto; split; auto].
  - intros h _. destruct (HH h) as (L & E & S1 & K1 & _). rewrite E. auto.
  - intros p j Hpn Hj. assert (Hn : 0 < n) by lia. set (c := p / n). set (i := p mod n).
    assert (Epq : p = c * n + i) by (unfold c, i; rewrite Nat.mul_comm; apply Nat.div_mod; lia). assert (Hi : i < n) by (apply Nat.mod_upper_bound; lia).
    assert (Hc : c < length ns) by (apply Nat.div_lt_upper_bound; lia). rewrite Epq, Ge by auto.
    set (x := aget a i j). set (y := aget d i j). set (m := nth c ns 0).
    assert (L : derivable_pt_lim (fun h => (x + h * y) ^ m)%R 0 (INR m * x ^ pred m * y)%R).
    { pose proof (derivable_pt_lim_comp (fun h => x + h * y)%R (fun z => z ^ m)%R 0 y (INR m * x ^ pred m)%R) as HC. apply HC.
      - assert (L0 : derivable_pt_lim (fun h => x + h * y)%R 0 (0 + (1 * y + 0 * 0))%R).
        { apply (derivable_pt_lim_plus (fun _ => x) (fun h => h * y)%R); [apply derivable_pt_lim_const|]. apply (derivable_pt_lim_mult id (fun _ => y)); [apply derivable_pt_lim_id|apply derivable_pt_lim_const]. }
        now replace (0 + (1 * y + 0 * 0))%R with y in L0 by ring.
      - replace (x + 0 * y)%R with x by ring. apply derivable_pt_lim_pow. }
    intros eps He. destruct (L eps He) as [d0 Hd0]. exists d0. intros h Hh1 Hh2.
    destruct (HH (0 + h)%R) as (L1 & E1 & _ & _ & G1). destruct (HH 0%R) as (L0 & E0 & _ & _ & G0). rewrite E1, E0, G1, G0 by auto. now apply Hd0.
Qed.
Lemma quad_ddts_form n k a d : shaped n k a -> shaped n k d -> same_kind a d -> lf_ddts quad_lifter a d = lf_ddts (poly_lifter (map INR [1; 2])) a d.
Proof.
  intros Ha Hd K. cbn [quad_lifter poly_lifter lf_ddts]. unfold quad_lift_ddts, poly_lift_ddts. cbn [map mapM]. rewrite (nmap2_ddt n k 0 a d Ha Hd K), (nmap2_ddt n k 1 a d Ha Hd K). cbn [bind nconcat].
  replace (nmap (nmult (F 2)) (finite a)) with (nmap (fun x => nmult (F (INR 2)) (npow x (INR 2 - 1))) (finite a)).
  - rewrite (nmap2_ddt n k 1 a d Ha Hd K). cbn [bind]. f_equal. f_equal. f_equal. destruct (amap2_ok n k (fun x y => INR 1 * x ^ 0 * y)%R a d Ha Hd K) as (S1 & K1 & G1).
    apply (aget_ext n k); auto. { eapply same_kind_trans; [apply same_kind_sym; exact K|exact K1]. } intros i j Hi Hj. rewrite G1 by auto. cbn. ring.
  - assert (E : forall v : vec, map (fun x => nmult (F (INR 2)) (npow x (INR 2 - 1))) (map F v) = map (nmult (F 2)) (map F v)).
    { intros v. rewrite !map_map. apply map_ext. intros x. replace (INR 2 - 1)%R with (INR 1) by (cbn; ring). rewrite npow_nat. cbn [nmult]. f_equal. cbn. ring. }
    destruct a as [v|A]; cbn [nmap finite]; f_equal; auto. rewrite !map_map. apply map_ext. auto.
Qed.
(* ---- unlift ------------------------------------------------------------------------------------------------------------- *)
Lemma index1_nat ns : In 1 ns -> exists c, index1 (map INR ns) = Some c /\ c < length ns /\ nth c ns 0 = 1.
Proof.
  induction ns as [|m ns IH]; intros H; [destruct H|]. cbn [map index1]. destruct (Req_EM_T (INR m) 1) as [E|E].
  - exists 0. cbn. repeat split; auto; [lia|]. apply INR_eq. now rewrite E.
  - destruct H as [->|H]; [now cbn in E|]. destruct (IH H) as (c & E1 & E2 & E3). rewrite E1. exists (S c). cbn. repeat split; auto. lia.
Qed.
Lemma nsplit_finite n k m L : 0 < m -> shaped (m * n) k L -> nsplit m (finite L) = Ok (map (fun c => finite (rows (c * n) (c * n + n) L)) (seq 0 m)).
Proof.
  intros Hm HL. unfold nsplit. destruct (Nat.eqb_spec m 0); [lia|]. assert (Er : nrows_n (finite L) = m * n).
  { destruct L as [v|A]; cbn [finite nrows_n shaped] in *; rewrite map_length; [destruct HL as [H _]; exact H|destruct HL as [H _]; exact H]. }
  rewrite Er. rewrite (Nat.mul_comm m n), Nat.mod_mul by lia. cbn [Nat.eqb negb]. rewrite Nat.div_mul by lia. f_equal.
  destruct L as [v|A]; cbn [finite]; unfold chunks; rewrite map_map; apply map_ext; intros c; unfold rows; replace (c * n + n - c * n) with n by lia; cbn [finite]; f_equal; now rewrite <- firstn_map, <- skipn_map.
Qed.
Lemma poly_unlift_form n k ns L : In 1 ns -> shaped (length ns * n) k L -> exists c, c < length ns /\ nth c ns 0 = 1 /\
  lf_unlift (poly_lifter (map INR ns)) L = Ok (rows (c * n) (c * n + n) L).
Proof.
  intros H HL. destruct (index1_nat ns H) as (c & E1 & E2 & E3). exists c. split; auto. split; auto. cbn [poly_lifter lf_unlift]. unfold poly_unlift. rewrite map_length.
  rewrite (nsplit_finite n k) by (auto; lia). cbn [bind]. rewrite E1. rewrite (nth_error_nth' _ (finite (rows (0 * n) (0 * n + n) L))) by now rewrite map_length, seq_length.
  rewrite (map_nth (fun c => finite (rows (c * n) (c * n + n) L)) (seq 0 (length ns)) 0 c). rewrite seq_nth by auto. cbn [bind plus]. apply all_finite_finite.
Qed.
Lemma quad_unlift_form n k L : shaped (2 * n) k L -> lf_unlift quad_lifter L = Ok (rows (0 * n) (0 * n + n) L).
Proof.
  intros HL. cbn [quad_lifter lf_unlift]. unfold quad_unlift. rewrite (nsplit_finite n k) by (auto; lia). cbn [bind seq map]. apply all_finite_finite.
Qed.
Lemma rows_shaped n k m c L : c < m -> shaped (m * n) k L -> shaped n k (rows (c * n) (c * n + n) L) /\ same_kind L (rows (c * n) (c * n + n) L) /\
  forall i j, i < n -> aget (rows (c * n) (c * n + n) L) i j = aget L (c * n + i) j.
Proof.
  intros Hc HL. assert (Hle : c * n + n <= m * n) by nia. unfold rows. replace (c * n + n - c * n) with n by lia. destruct L as [v|A]; cbn [shaped same_kind aget] in *.
  - destruct HL as [Hv ->]. unfold is_vec in *. split; [split; auto; rewrite firstn_length, skipn_length; lia|]. split; auto. intros i j Hi. unfold vget. now rewrite nth_rows.
  - destruct HL as [H1 H2]. split; [|split; auto].
    + split; [rewrite firstn_length, skipn_length; lia|]. apply Forall_forall. intros x Hx. rewrite Forall_forall in H2. apply H2.
      rewrite <- (firstn_skipn (c * n) A). apply in_or_app. right. rewrite <- (firstn_skipn n (skipn (c * n) A)). apply in_or_app. auto.
    + intros i j Hi. unfold mget. now rewrite nth_rows.
Qed.
Lemma poly_lifts n k ns a : In 1 ns -> shaped n k a -> exists L, lf_lift (poly_lifter (map INR ns)) a = Ok L /\ shaped (length ns * n) k L /\ lf_unlift (poly_lifter (map INR ns)) L = Ok a.
Proof.
  intros H Ha. destruct (poly_lift_form n k ns a) as (L & E & SL & KL & G); auto. { intros ->. destruct H. }
  exists L. split; auto. split; auto. destruct (poly_unlift_form n k ns L H SL) as (c & Hc & H1 & ->). f_equal.
  destruct (rows_shaped n k (length ns) c L Hc SL) as (S1 & K1 & G1). apply (aget_ext n k); auto. { apply same_kind_sym. eapply same_kind_trans; eauto. }
  intros i j Hi Hj. rewrite G1, G, H1 by auto. apply pow_1.
Qed.
Lemma quad_lifts n k a : shaped n k a -> exists L, lf_lift quad_lifter a = Ok L /\ shaped (2 * n) k L /\ lf_unlift quad_lifter L = Ok a.
Proof.
  intros Ha. destruct (poly_lift_form n k [1; 2] a) as (L & E & SL & KL & G); auto. { discriminate. }
  exists L. rewrite (quad_lift_form n k a Ha). split; auto. split; auto. rewrite (quad_unlift_form n k L SL). f_equal.
  destruct (rows_shaped n k 2 0 L ltac:(lia) SL) as (S1 & K1 & G1). apply (aget_ext n k); auto. { apply same_kind_sym. eapply same_kind_trans; eauto. }
  intros i j Hi Hj. rewrite G1, G by (cbn [length]; auto; lia). apply pow_1.
Qed.
Lemma quad_derivative n k a d : shaped n k a -> shaped n k d -> same_kind a d ->
  exists e, lf_ddts quad_lifter a d = Ok e /\ derivative_along (lf_lift quad_lifter) a d (2 * n) k e.
Proof.
  intros Ha Hd K. assert (HP : Forall (lt 0) [1; 2]) by (constructor; [lia|constructor; [lia|constructor]]).
  destruct (poly_derivative n k [1; 2] a d ltac:(discriminate) HP Ha Hd K) as (e & E & X & delta & H1 & H2 & H3).
  exists e. rewrite (quad_ddts_form n k) by auto. split; auto. exists X, delta. split; auto. split; auto. intros h Hh. destruct (shaped_acomb n k a h d Ha Hd K) as [Sc _]. rewrite (quad_lift_form n k) by auto. auto.
Qed.
(* ---- columns --------------------------------------------------------------------------------------------------------------- *)
Lemma rows_columnwise n m c f : c < m -> (forall k L, shaped (m * n) k L -> f L = Ok (rows (c * n) (c * n + n) L)) -> columnwise (m * n) n f.
Proof.
  intros Hc Hf k a Ha b E. rewrite (Hf k a Ha) in E. injection E as <-. destruct (rows_shaped n k m c a Hc Ha) as (S1 & K1 & G1). split; auto. split; auto. intros j Hj.
  pose proof (shaped_col (m * n) a j) as Sc. rewrite (Hf 1 _ Sc). f_equal. destruct (rows_shaped n 1 m c _ Hc Sc) as (S2 & K2 & G2).
  apply (aget_ext n 1); auto. { apply shaped_col. }
  intros i l Hi Hl. rewrite G2 by auto. cbn [aget]. rewrite !vget_col by nia. now rewrite G1.
Qed.
Lemma lift_columnwise n ns f : ns <> [] -> (forall k a, shaped n k a -> f a = lf_lift (poly_lifter (map INR ns)) a) -> columnwise n (length ns * n) f.
Proof.
  intros Hne Hf k a Ha b E. rewrite (Hf k a Ha) in E. destruct (poly_lift_form n k ns a Hne Ha) as (L & EL & SL & KL & G). rewrite EL in E. injection E as <-. split; auto. split; auto. intros j Hj.
  pose proof (shaped_col n a j) as Sc. rewrite (Hf 1 _ Sc). destruct (poly_lift_form n 1 ns _ Hne Sc) as (L2 & E2 & S2 & K2 & G2). rewrite E2. f_equal.
  apply (aget_ext (length ns * n) 1); auto. { apply shaped_col. } 
  intros p l Hp Hl. assert (Hn : 0 < n) by lia. set (c := p / n). set (i := p mod n).
  assert (Epq : p = c * n + i) by (unfold c, i; rewrite Nat.mul_comm; apply Nat.div_mod; lia). assert (Hi : i < n) by (apply Nat.mod_upper_bound; lia).
  assert (Hc : c < length ns) by (apply Nat.div_lt_upper_bound; lia). cbn [aget]. rewrite vget_col by auto. rewrite Epq, G2, G by auto. cbn [aget]. now rewrite vget_col.
Qed.
Lemma poly_columns n ns : In 1 ns -> columnwise_lifter n (length ns * n) (Some (poly_lifter (map INR ns))).
Proof.
  intros H. cbn [columnwise_lifter]. split. { apply lift_columnwise; auto. intros ->. destruct H. }
  destruct (index1_nat ns H) as (c & E1 & E2 & E3). apply (rows_columnwise n (length ns) c); auto. intros k L HL.
  cbn [poly_lifter lf_unlift]. unfold poly_unlift. rewrite map_length. rewrite (nsplit_finite n k) by (auto; lia). cbn [bind]. rewrite E1. rewrite (nth_error_nth' _ (finite (rows (0 * n) (0 * n + n) L))) by now rewrite map_length, seq_length.
  rewrite (map_nth (fun c => finite (rows (c * n) (c * n + n) L)) (seq 0 (length ns)) 0 c). rewrite seq_nth by auto. cbn [bind plus]. apply all_finite_finite.
Qed.
Lemma quad_columns n : columnwise_lifter n (2 * n) (Some quad_lifter).
Proof.
  cbn [columnwise_lifter]. split. { apply (lift_columnwise n [1; 2]); [discriminate|]. intros k a Ha. now apply (quad_lift_form n k). }
  apply (rows_columnwise n 2 0); [lia|]. intros k L HL. now apply (quad_unlift_form n k).
Qed.

(* BasisMultiProofs.v -- multi-variable bases act variable by variable. *)
From Verif Require Import LinAlg MatAlg EckartYoung LinSys PreProofs PreLocs PreFinal SpecBasis BasisProofs.
From Coq Require Import Lra Lia Psatz.
#[local] Open Scope nat_scope.

Lemma members_len ns rs bs : members ns rs bs -> length ns = length bs /\ length rs = length bs.
Proof. revert rs bs. induction ns as [|n ns IH]; intros [|r rs] [|b bs]; cbn; try tauto. intros [_ H]. destruct (IH _ _ H). lia. Qed.
Lemma members_full ns rs bs : members ns rs bs -> full_sizes bs = Some ns.
Proof.
  unfold full_sizes. revert rs bs. induction ns as [|n ns IH]; intros [|r rs] [|b bs]; cbn; try tauto. intros [(H1 & _) H]. rewrite H1. cbn. now rewrite (IH rs bs H).
Qed.
Lemma members_red ns rs bs : members ns rs bs -> red_sizes bs = Some rs.
Proof.
  unfold red_sizes. revert rs bs. induction ns as [|n ns IH]; intros [|r rs] [|b bs]; cbn; try tauto. intros [(_ & H1 & _) H]. rewrite H1. cbn. now rewrite (IH rs bs H).
Qed.
Lemma members_nth ns rs bs i b : members ns rs bs -> nth_error bs i = Some b -> member (nth i ns 0) (nth i rs 0) b.
Proof.
  revert rs bs i. induction ns as [|n ns IH]; intros [|r rs] [|c bs] [|i]; cbn; try tauto; try discriminate.
  - intros [H _] E. now injection E as <-.
  - intros [_ H] E. eapply IH; eauto.
Qed.
Lemma bsplit_full ns rs bs a : members ns rs bs -> alen a = lsumn ns -> bsplit bs a = Ok (split_rows ns a).
Proof. intros Hm Ha. unfold bsplit, is_reduced. rewrite (members_full _ _ _ Hm), Ha, Nat.eqb_refl. cbn [bind]. reflexivity. Qed.
Lemma bsplit_red ns rs bs a : members ns rs bs -> alen a = lsumn rs -> (lsumn ns = lsumn rs -> ns = rs) -> bsplit bs a = Ok (split_rows rs a).
Proof.
  intros Hm Ha Hc. unfold bsplit, is_reduced. rewrite (members_full _ _ _ Hm), (members_red _ _ _ Hm), Ha, Nat.eqb_refl.
  destruct (Nat.eqb_spec (lsumn rs) (lsumn ns)) as [E|]; cbn [bind]; [|reflexivity]. now rewrite Hc.
Qed.
Lemma sums_le rs ns : Forall2 le rs ns -> lsumn rs <= lsumn ns /\ (lsumn ns = lsumn rs -> ns = rs).
Proof.
  induction 1 as [|r n rs ns H F [IH1 IH2]]; cbn [lsumn fold_right] in *; [auto|]. fold (lsumn rs) (lsumn ns) in *. split; [lia|]. intros E.
  assert (n = r) by lia. subst. f_equal. apply IH2. lia.
Qed.

Lemma lsplit_cons_eq {A} n ns (l : list A) : n <= length l -> lsplit (n :: ns) l = firstn n l :: lsplit ns (skipn n l).
Proof.
  intros H. rewrite <- (firstn_skipn n l) at 1. apply lsplit_cons. rewrite firstn_length. lia.
Qed.
Lemma split_shaped ns k a : shaped (lsumn ns) k a -> Forall2 (fun n x => shaped n k x /\ same_kind a x) ns (split_rows ns a).
Proof.
  destruct a as [v|A]; cbn [shaped].
  - intros [Hv ->]. rewrite split_rows_V. revert v Hv. induction ns as [|n ns IH]; intros v Hv. { constructor. }
    cbn [lsumn fold_right] in Hv. fold (lsumn ns) in Hv. unfold is_vec in Hv. rewrite lsplit_cons_eq by lia. constructor.
    + cbn. unfold is_vec. rewrite firstn_length. repeat split; auto. lia.
    + apply (IH (skipn n v)). unfold is_vec. rewrite skipn_length. lia.
  - intros HA. rewrite split_rows_M. revert A HA. induction ns as [|n ns IH]; intros A HA. { constructor. }
    cbn [lsumn fold_right] in HA. fold (lsumn ns) in HA. destruct HA as [H1 H2]. rewrite lsplit_cons_eq by lia. constructor.
    + cbn. split; auto. split. { rewrite firstn_length. lia. } apply Forall_forall. intros x Hx. rewrite Forall_forall in H2. apply H2.
      rewrite <- (firstn_skipn n A). apply in_or_app. auto.
    + apply (IH (skipn n A)). split. { rewrite skipn_length. lia. } apply Forall_forall. intros x Hx. rewrite Forall_forall in H2. apply H2.
      rewrite <- (firstn_skipn n A). apply in_or_app. auto.
Qed.
Lemma kinds_V rs k v ys : Forall2 (fun r y => shaped r k y /\ same_kind (V v) y) rs ys -> exists vs, ys = map V vs /\ Forall2 is_vec rs vs /\ (rs <> [] -> k = 1).
Proof.
  induction 1 as [|r y rs ys [H1 H2] F (vs & -> & Fv & Hk)]. { exists []. repeat split; auto. tauto. }
  destruct y as [u|]; [|now cbn in H2]. cbn in H1. destruct H1 as [H1 ->]. exists (u :: vs). repeat split; auto.
Qed.
Lemma kinds_M rs k A ys : Forall2 (fun r y => shaped r k y /\ same_kind (M A) y) rs ys -> exists vs, ys = map M vs /\ Forall2 (fun r B => is_mat r k B) rs vs.
Proof.
  induction 1 as [|r y rs ys [H1 H2] F (vs & -> & Fv)]. { exists []. repeat split; auto. }
  destruct y as [|B]; [now cbn in H2|]. cbn in H1. exists (B :: vs). repeat split; auto.
Qed.
Lemma concat_shaped rs k a ys : rs <> [] -> Forall2 (fun r y => shaped r k y /\ same_kind a y) rs ys ->
  exists q, aconcat ys = Ok q /\ shaped (lsumn rs) k q /\ same_kind a q /\ split_rows rs q = ys.
Proof.
  intros Hne H. assert (Hal : map alen ys = rs).
  { clear -H. induction H as [|r y rs ys [H1 _] F IH]; cbn; [reflexivity|]. now rewrite (shaped_alen _ _ _ H1), IH. }
  assert (Hy : ys <> []). { intros ->. inversion H. subst. tauto. }
  assert (exists q, aconcat ys = Ok q /\ shaped (lsumn rs) k q /\ same_kind a q) as (q & E & S1 & K1).
  { destruct a as [v|A].
    - destruct (kinds_V rs k v ys H) as (vs & -> & Fv & Hk). specialize (Hk Hne). exists (V (concat vs)). split. { apply aconcat_V. now intros ->. }
      cbn. repeat split; auto. unfold is_vec. rewrite concat_length'. clear -Fv. induction Fv; cbn; [reflexivity|]. fold (lsumn l). unfold is_vec in H. fold (lsumn (map (length (A:=R)) l')). lia.
    - destruct (kinds_M rs k A ys H) as (vs & -> & Fv). exists (M (concat vs)). split. { apply aconcat_M. now intros ->. }
      cbn [shaped same_kind]. split; auto. clear -Fv. induction Fv as [|r B rs l [H1 H2] F [IH1 IH2]]; cbn [concat lsumn fold_right]. { split; auto. }
      fold (lsumn rs). split. { rewrite app_length. lia. } apply Forall_app. auto. }
  exists q. repeat split; auto. destruct (split_concat ys q E) as [F _]. now rewrite Hal in F.
Qed.
(* run a shape-changing function on the blocks *)
Lemma blockwise k (f : basis -> arr -> res arr) ns rs bs a :
  length ns = length bs -> length rs = length bs -> bs <> [] -> shaped (lsumn ns) k a ->
  (forall i b x, nth_error bs i = Some b -> shaped (nth i ns 0) k x -> exists y, f b x = Ok y /\ shaped (nth i rs 0) k y /\ same_kind x y) ->
  exists ys q, zipM f bs (split_rows ns a) = Ok ys /\ aconcat ys = Ok q /\ shaped (lsumn rs) k q /\ same_kind a q /\ split_rows rs q = ys /\
  forall i b, nth_error bs i = Some b -> f b (var_rows ns i a) = Ok (var_rows rs i q).
Proof.
  intros L1 L2 Hne Ha Hf. pose proof (split_shaped ns k a Ha) as Hs.
  assert (exists ys, zipM f bs (split_rows ns a) = Ok ys /\ Forall2 (fun r y => shaped r k y /\ same_kind a y) rs ys) as (ys & Ez & Fy).
  { revert Hs. generalize (split_rows ns a) as qs. clear Hne Ha. revert ns rs L1 L2 Hf. induction bs as [|b bs IH]; intros ns rs L1 L2 Hf qs Hs.
    - destruct rs; [|discriminate L2]. exists []. split; [reflexivity|constructor].
    - destruct ns as [|n ns]; [discriminate|]. destruct rs as [|r rs]; [discriminate|]. inversion Hs as [|? x ? qs' [Hx Kx] Hs']; subst.
      destruct (Hf 0 b x eq_refl Hx) as (y & Ey & Sy & Ky). cbn [length] in *.
      destruct (IH ns rs ltac:(lia) ltac:(lia) (fun i b x H => Hf (S i) b x H) qs' Hs') as (ys & E & F).
      exists (y :: ys). cbn [zipM]. rewrite Ey. cbn [bind]. rewrite E. cbn [bind]. split; [reflexivity|]. constructor; auto. split; auto. eapply same_kind_trans; eauto. }
  destruct (concat_shaped rs k a ys) as (q & Eq & Sq & Kq & Sp); auto. { intros ->. destruct bs; [tauto|discriminate]. }
  exists ys, q. repeat split; auto. intros i b Hb. assert (Hi : i < length bs) by (apply nth_error_Some; congruence).
  rewrite <- (var_rows_nth ns a i) by lia. rewrite <- (var_rows_nth rs q i) by lia. rewrite Sp.
  pose proof (zipM_nth f bs (split_rows ns a) ys b (V []) (V [])) as Z. rewrite split_rows_length in Z. specialize (Z (eq_sym L1) Ez). 
  destruct Z as [_ Z]. specialize (Z i Hi). now rewrite (nth_error_nth bs i b Hb) in Z.
Qed.
Lemma member_compress n r k b x : member n r b -> shaped n k x -> exists y, b_compress b x = Ok y /\ shaped r k y /\ same_kind x y.
Proof. intros (_ & _ & A & W & H) Hx. destruct (b_compress_ok n r k W A b x H Hx) as (q & E & Sq & Kq & _). eauto. Qed.
Lemma member_decompress n r k b x : member n r b -> shaped r k x -> exists y, b_decompress b x None = Ok y /\ shaped n k y /\ same_kind x y.
Proof. intros (_ & _ & A & W & H) Hx. destruct (b_decompress_ok n r k W A b x H Hx) as (q & E & Sq & Kq & _). eauto. Qed.

Lemma C12_comp ns rs bs k a : members ns rs bs -> bs <> [] -> shaped (lsumn ns) k a ->
  exists q, bm_compress bs a = Ok q /\ shaped (lsumn rs) k q /\ same_kind a q /\
  forall i b, nth_error bs i = Some b -> b_compress b (var_rows ns i a) = Ok (var_rows rs i q).
Proof.
  intros Hm Hne Ha. destruct (members_len _ _ _ Hm) as [L1 L2]. pose proof (shaped_alen _ _ _ Ha) as Hal.
  destruct (blockwise k b_compress ns rs bs a L1 L2 Hne Ha) as (ys & q & Ez & Eq & Sq & Kq & _ & Hi).
  { intros i b x Hb Hx. eapply member_compress; [|exact Hx]. eapply members_nth; eauto. }
  exists q. unfold bm_compress. rewrite (members_full _ _ _ Hm). cbn [size_check]. rewrite Hal, Nat.eqb_refl. cbn [bind].
  rewrite (bsplit_full ns rs bs a Hm Hal). cbn [bind]. rewrite Ez. cbn [bind]. auto.
Qed.
Lemma C12_decomp ns rs bs k q : members ns rs bs -> bs <> [] -> Forall2 le rs ns -> shaped (lsumn rs) k q ->
  exists x, bm_decompress bs q None = Ok x /\ shaped (lsumn ns) k x /\ same_kind q x /\
  forall i b, nth_error bs i = Some b -> b_decompress b (var_rows rs i q) None = Ok (var_rows ns i x).
Proof.
  intros Hm Hne Hle Hq. destruct (members_len _ _ _ Hm) as [L1 L2]. pose proof (shaped_alen _ _ _ Hq) as Hal.
  destruct (blockwise k (fun b x => b_decompress b x None) rs ns bs q L2 L1 Hne Hq) as (ys & x & Ez & Eq & Sq & Kq & _ & Hi).
  { intros i b x Hb Hx. eapply member_decompress; [|exact Hx]. eapply members_nth; eauto. }
  exists x. unfold bm_decompress. rewrite (members_red _ _ _ Hm). cbn [size_check]. rewrite Hal, Nat.eqb_refl. cbn [bind].
  rewrite (bsplit_red ns rs bs q Hm Hal (proj2 (sums_le _ _ Hle))). cbn [bind]. rewrite Ez. cbn [bind]. auto.
Qed.
(* an orthonormal basis is not wide *)
Lemma orthonormal_le n r W A : w_orthonormal n r W A -> r <= n.
Proof.
  intros Ho. destruct (Nat.le_gt_cases r n) as [|Hlt]; auto. exfalso.
  destruct (hom_system n r (fun i j => mget A i j) Hlt) as (x & (j & Hj & Hxj) & Hx). apply Hxj.
  rewrite <- (wip_span n r W A j x Ho Hj). unfold wip. apply bsum_0. intros i Hi. apply bsum_0. intros l Hl. unfold span. rewrite Hx by auto. ring.
Qed.
Lemma members_orth ns rs bs : members ns rs bs -> Forall orthonormal bs -> Forall2 le rs ns.
Proof.
  revert rs bs. induction ns as [|n ns IH]; intros [|r rs] [|b bs]; cbn; try tauto. { constructor. }
  intros [(H1 & H2 & A & W & Hb) H] Hf. inversion Hf as [|? ? (n' & r' & W' & A' & Hb' & Ho) Hf']; subst. constructor; eauto.
  destruct Hb as (Hn & Hr & HA & _ & E & _), Hb' as (Hn' & Hr' & HA' & _ & E' & _). rewrite E in E'. injection E' as <-.
  assert (n = n') by (eapply is_mat_unique_rows; eauto). subst n'. pose proof (ncols_is_mat _ _ _ HA Hn). pose proof (ncols_is_mat _ _ _ HA' Hn). assert (r = r') by congruence. subst.
  eapply orthonormal_le; eauto.
Qed.
Lemma member_round n r k b q x : member n r b -> orthonormal b -> shaped r k q -> b_decompress b q None = Ok x -> b_compress b x = Ok q.
Proof.
  intros (_ & _ & A & W & Hb) (n' & r' & W' & A' & Hb' & Ho) Hq E.
  pose proof Hb as (Hn & Hr & HA & _ & E1 & E2). pose proof Hb' as (Hn' & Hr' & HA' & _ & E' & E2'). rewrite E1 in E'. injection E' as <-.
  assert (n = n') by (eapply is_mat_unique_rows; eauto). subst n'. assert (Er : r' = r) by (rewrite <- (ncols_is_mat _ _ _ HA Hn); symmetry; exact (ncols_is_mat _ _ _ HA' Hn)). subst r'.
  destruct (C09_round n r k W' A b q Hb' Ho Hq) as (x' & Ex & _ & Ec). congruence.
Qed.
Lemma rows_ext ns k a b : shaped (lsumn ns) k a -> shaped (lsumn ns) k b -> ns <> [] -> (forall i, i < length ns -> var_rows ns i a = var_rows ns i b) -> a = b.
Proof.
  intros Ha Hb Hne H. assert (split_rows ns a = split_rows ns b).
  { apply (list_ext (V [])). { now rewrite !split_rows_length. } intros i Hi. rewrite split_rows_length in Hi. rewrite !var_rows_nth by auto. auto. }
  pose proof (concat_split ns a Hne (shaped_alen _ _ _ Ha)) as E1. pose proof (concat_split ns b Hne (shaped_alen _ _ _ Hb)) as E2. congruence.
Qed.
Lemma C12_round ns rs bs k q : members ns rs bs -> bs <> [] -> Forall orthonormal bs -> shaped (lsumn rs) k q ->
  exists x, bm_decompress bs q None = Ok x /\ shaped (lsumn ns) k x /\ bm_compress bs x = Ok q.
Proof.
  intros Hm Hne Ho Hq. destruct (members_len _ _ _ Hm) as [L1 L2].
  destruct (C12_decomp ns rs bs k q Hm Hne (members_orth _ _ _ Hm Ho) Hq) as (x & E & Sx & Kx & Hi). exists x. repeat split; auto.
  destruct (C12_comp ns rs bs k x Hm Hne Sx) as (q' & E' & Sq' & Kq' & Hi'). rewrite E'. f_equal. apply (rows_ext rs k); auto. { intros ->. destruct bs; [tauto|discriminate]. }
  intros i Hil. destruct (nth_error bs i) as [b|] eqn:Eb; [|apply nth_error_None in Eb; lia].
  specialize (Hi i b Eb). specialize (Hi' i b Eb). rewrite Forall_forall in Ho.
  pose proof (members_nth _ _ _ _ _ Hm Eb) as Hmb. pose proof (split_shaped rs k q Hq) as Sp.
  assert (Sx' : shaped (nth i rs 0) k (var_rows rs i q)).
  { rewrite <- (var_rows_nth rs q i) by lia. clear -Sp Hil. revert i Hil. induction Sp as [|r y rs' ys [H1 _] F IH]; intros i Hi; cbn in *; [lia|]. destruct i; auto. apply IH. lia. }
  rewrite (member_round _ _ k b (var_rows rs i q) (var_rows ns i x) Hmb (Ho b (nth_error_In _ _ Eb)) Sx' Hi) in Hi'. congruence.
Qed.
Lemma C12_project ns rs bs k a : members ns rs bs -> bs <> [] -> Forall2 le rs ns -> shaped (lsumn ns) k a ->
  exists p, project bm_compress bm_decompress bs a = Ok p /\ shaped (lsumn ns) k p /\
  forall i b, nth_error bs i = Some b -> b_project b (var_rows ns i a) = Ok (var_rows ns i p).
Proof.
  intros Hm Hne Hle Ha. destruct (C12_comp ns rs bs k a Hm Hne Ha) as (q & E & Sq & _ & Hi).
  destruct (C12_decomp ns rs bs k q Hm Hne Hle Sq) as (p & E' & Sp & _ & Hi'). exists p. unfold project. rewrite E. cbn [bind]. repeat split; auto.
  intros i b Hb. unfold b_project, project. rewrite (Hi i b Hb). cbn [bind]. auto.
Qed.
Lemma C12_wrong ns rs bs : members ns rs bs ->
  (forall a, alen a <> lsumn ns -> bm_compress bs a = Err DimensionalityError) /\
  (forall q l, alen q <> lsumn rs -> bm_decompress bs q l = Err DimensionalityError) /\
  (forall a, alen a <> lsumn ns -> alen a <> lsumn rs -> bsplit bs a = Err DimensionalityError /\ forall v, bget_var bs v a = Err DimensionalityError).
Proof.
  intros Hm. repeat split.
  - intros a H. unfold bm_compress. rewrite (members_full _ _ _ Hm). cbn [size_check]. now rewrite (proj2 (Nat.eqb_neq _ _) H).
  - intros q l H. unfold bm_decompress. rewrite (members_red _ _ _ Hm). cbn [size_check]. now rewrite (proj2 (Nat.eqb_neq _ _) H).
  - unfold bsplit, is_reduced. rewrite (members_full _ _ _ Hm), (members_red _ _ _ Hm). now rewrite (proj2 (Nat.eqb_neq _ _) H), (proj2 (Nat.eqb_neq _ _) H0).
  - intros v. unfold bget_var, is_reduced. rewrite (members_full _ _ _ Hm), (members_red _ _ _ Hm). now rewrite (proj2 (Nat.eqb_neq _ _) H), (proj2 (Nat.eqb_neq _ _) H0).
Qed.
Lemma C12_split_full ns rs bs k a : members ns rs bs -> bs <> [] -> Forall2 le rs ns -> 
  (shaped (lsumn ns) k a -> exists qs, bsplit bs a = Ok qs /\ aconcat qs = Ok a /\ length qs = length bs /\ forall i, i < length bs -> nth i qs (V []) = var_rows ns i a) /\
  (shaped (lsumn rs) k a -> exists qs, bsplit bs a = Ok qs /\ aconcat qs = Ok a /\ length qs = length bs /\ forall i, i < length bs -> nth i qs (V []) = var_rows rs i a).
Proof.
  intros Hm Hne Hle. destruct (members_len _ _ _ Hm) as [L1 L2]. assert (ns <> []) by (intros ->; destruct bs; [tauto|discriminate]).
  assert (rs <> []) by (intros ->; destruct bs; [tauto|discriminate]). split; intros Ha; pose proof (shaped_alen _ _ _ Ha) as Hal.
  - exists (split_rows ns a). rewrite (bsplit_full ns rs bs a Hm Hal). repeat split; auto. { now apply concat_split. } { now rewrite split_rows_length. }
    intros i Hi. apply var_rows_nth. lia.
  - exists (split_rows rs a). rewrite (bsplit_red ns rs bs a Hm Hal (proj2 (sums_le _ _ Hle))). repeat split; auto. { now apply concat_split. } { now rewrite split_rows_length. }
    intros i Hi. apply var_rows_nth. lia.
Qed.
Lemma C12_nofit bs : full_sizes bs = None -> (forall a, bm_compress bs a = Err AttributeError).
Proof. intros H a. unfold bm_compress. now rewrite H. Qed.
Lemma C12_nofit_red bs : red_sizes bs = None -> (forall q l, bm_decompress bs q l = Err AttributeError).
Proof. intros H q l. unfold bm_decompress. now rewrite H. Qed.

(* ---- locations ------------------------------------------------------------------------------------------- *)
Lemma blockwise_any (f : basis -> arr -> res arr) bs qs : length bs = length qs ->
  (forall i b, nth_error bs i = Some b -> exists y, f b (nth i qs (V [])) = Ok y) -> exists ys, zipM f bs qs = Ok ys /\ length ys = length bs.
Proof.
  revert qs. induction bs as [|b bs IH]; intros [|x qs] L H; try discriminate. { exists []. auto. }
  destruct (H 0 b eq_refl) as (y & Ey). cbn [nth] in Ey. destruct (IH qs ltac:(cbn in L; lia) (fun i b Hb => H (S i) b Hb)) as (ys & E & L').
  exists (y :: ys). cbn [zipM]. rewrite Ey. cbn [bind]. rewrite E. cbn. auto.
Qed.
Lemma C11_multi n rs bs k q l idx : members (repeat n (length bs)) rs bs -> bs <> [] -> Forall (fun r => r <= n) rs -> shaped (lsumn rs) k q -> selects n l idx ->
  exists x y, bm_decompress bs q None = Ok x /\ bm_decompress bs q (Some l) = Ok y /\ alen x = length bs * n /\ alen y = length bs * length idx /\
  forall i, i < length bs -> var_rows (repeat (length idx) (length bs)) i y = asel idx (var_rows (repeat n (length bs)) i x).
Proof.
  intros Hm Hne Hle Hq Hl. set (m := length bs) in *. destruct (members_len _ _ _ Hm) as [L1 L2].
  assert (Hle2 : Forall2 le rs (repeat n m)).
  { clear -Hle L2. unfold m in *. clear m. revert L2 Hle. generalize (length bs) as m. induction rs as [|r rs IH]; intros [|m] L H; try discriminate; cbn; constructor; inversion H; subst; auto. }
  destruct (C12_decomp _ _ _ _ _ Hm Hne Hle2 Hq) as (x & Ex & Sx & Kx & Hix).
  assert (Hal : alen q = lsumn rs) by now apply shaped_alen in Hq.
  assert (Hne' : repeat n m <> []) by (intros E; apply (f_equal (@length nat)) in E; rewrite repeat_length in E; unfold m in E; destruct bs; [tauto|discriminate]).
  set (ks := repeat (length idx) m).
  assert (Hlk : length ks = length bs) by (unfold ks; now rewrite repeat_length).
  destruct (blockwise k (fun b x => b_decompress b x (Some l)) rs ks bs q L2 Hlk Hne Hq) as (ys & y & Ez & Eq & Sy & Ky & _ & Hi).
  { intros i b z Hb Hz. assert (Hib : i < length bs) by (apply nth_error_Some; congruence). destruct (members_nth _ _ _ _ _ Hm Hb) as (_ & _ & A & W & HbA).
    assert (En : nth i (repeat n m) 0 = n) by (apply (repeat_spec m n); apply nth_In; rewrite repeat_length; exact Hib). rewrite En in HbA.
    destruct (C11_linear n _ k W A b z l idx HbA Hz Hl) as (w & Ew & Aw & Ew2). exists (asel idx w). split; [exact Ew2|].
    destruct (b_decompress_ok n _ k W A b z HbA Hz) as (w' & Ew' & Sw' & Kw' & _). rewrite Ew in Ew'. injection Ew' as <-.
    assert (Ek : nth i ks 0 = length idx) by (apply (repeat_spec m); apply nth_In; unfold ks; rewrite repeat_length; exact Hib). rewrite Ek.
    pose proof (selects_lt _ _ _ Hl) as Hlt. destruct w as [u|B], z as [?|?]; cbn [same_kind asel shaped] in *; try tauto.
    - destruct Sw' as [Su ->]. repeat split; auto. unfold is_vec. apply take_at_length.
    - split; auto. split. { apply take_at_length. } unfold take_at. apply Forall_map. eapply Forall_impl; [|exact Hlt]. intros c Hc. cbv beta. now apply (is_mat_row n k). }
  exists x, y. repeat split; auto.
  - unfold bm_decompress. rewrite (members_red _ _ _ Hm), (members_full _ _ _ Hm). cbn [size_check]. rewrite Hal, Nat.eqb_refl, all_same_repeat. cbn [bind].
    rewrite (bsplit_red _ _ _ _ Hm Hal (proj2 (sums_le _ _ Hle2))). cbn [bind]. rewrite Ez. exact Eq.
  - rewrite (shaped_alen _ _ _ Sx). apply lsumn_repeat.
  - rewrite (shaped_alen _ _ _ Sy). apply lsumn_repeat.
  - intros i Hil. destruct (nth_error bs i) as [b|] eqn:Eb; [|apply nth_error_None in Eb; lia].
    specialize (Hi i b Eb). specialize (Hix i b Eb). cbv beta in Hi. destruct (members_nth _ _ _ _ _ Hm Eb) as (_ & _ & A & W & HbA).
    assert (En : nth i (repeat n m) 0 = n) by (apply (repeat_spec m n); apply nth_In; rewrite repeat_length; exact Hil). rewrite En in HbA.
    assert (Sq : shaped (nth i rs 0) k (var_rows rs i q)).
    { rewrite <- (var_rows_nth rs q i) by lia. pose proof (split_shaped rs k q Hq) as Sp. assert (Hir : i < length rs) by lia. clear -Sp Hir. revert i Hir.
      induction Sp as [|r z rs' zs [H1 _] F IH]; intros i Hi; cbn in *; [lia|]. destruct i; auto. apply IH. lia. }
    destruct (C11_linear n _ k W A b _ l idx HbA Sq Hl) as (w & Ew & _ & Ew2). unfold ks, m in *. congruence.
Qed.
Lemma C11_multi_sizes ns rs bs q l : members ns rs bs -> alen q = lsumn rs -> (exists x y, In x ns /\ In y ns /\ x <> y) -> bm_decompress bs q (Some l) = Err ValueError.
Proof.
  intros Hm Hq (x & y & Hx & Hy & Hxy). unfold bm_decompress. rewrite (members_red _ _ _ Hm), (members_full _ _ _ Hm). cbn [size_check]. rewrite Hq, Nat.eqb_refl. cbn [bind].
  destruct (all_same ns) eqn:E; [|reflexivity]. exfalso. apply Hxy. rewrite all_same_iff in E. auto.
Qed.

(* ---- a state as long as the full state is taken for one ---------------------------------------------------- *)
Lemma C12_wide_refuted : exists ns rs bs q, members ns rs bs /\ bs <> [] /\ shaped (lsumn rs) 1 q /\
  (forall i b, nth_error bs i = Some b -> exists x, b_decompress b (var_rows rs i q) None = Ok x) /\ bm_decompress bs q None = Err ValueError.
Proof.
  set (b1 := BLin {| lb_entries := [[1; 0]]%R; lb_weights := None; lb_n := Some 1; lb_r := 2; lb_name := None |}).
  set (b2 := BLin {| lb_entries := [[1]; [0]]%R; lb_weights := None; lb_n := Some 2; lb_r := 1; lb_name := None |}).
  exists [1; 2], [2; 1], [b1; b2], (V [5; 6; 7]%R). split; [|split; [discriminate|split; [now cbn|split]]].
  - cbn [members]. repeat split.
    + exists [[1; 0]]%R, None. repeat split; cbn; try lia; repeat constructor.
    + exists [[1]; [0]]%R, None. repeat split; cbn; try lia; repeat constructor.
  - intros [|[|[|i]]] b; cbn; intros H; try discriminate; injection H as <-; cbn; eexists; reflexivity.
  - reflexivity.
Qed.
Lemma C12_get_var ns rs bs a i : members ns rs bs -> i < length bs ->
  (alen a = lsumn ns -> bget_var bs (VIdx (Z.of_nat i)) a = Ok (var_rows ns i a)) /\
  (alen a = lsumn rs -> Forall2 le rs ns -> bget_var bs (VIdx (Z.of_nat i)) a = Ok (var_rows rs i a)).
Proof.
  intros Hm Hi. destruct (members_len _ _ _ Hm) as [L1 L2].
  assert (LD : forall l, length (dimsum l) = S (length l)).
  { intros l. unfold dimsum, cumsum. cbn. f_equal. generalize 0. induction l as [|n l IH]; intros c; cbn; auto. }
  assert (K : forall l, length l = length bs -> (do z <- norm_index (length (dimsum l)) (Z.of_nat i); do j <- norm_index (length (dimsum l)) (Z.of_nat i + 1)%Z; Ok (aslice (nth z (dimsum l) 0) (nth j (dimsum l) 0) a)) = Ok (var_rows l i a)).
  { intros l HL. rewrite (norm_index_ok _ _ i) by (rewrite ?LD; auto; lia). cbn [bind]. rewrite (norm_index_ok _ _ (S i)) by (rewrite ?LD; auto; try lia; left; lia). cbn [bind].
    rewrite !dimsum_nth by lia. unfold var_rows, rows, aslice, slice. destruct a; reflexivity. }
  split.
  - intros Ha. unfold bget_var, is_reduced. rewrite (members_full _ _ _ Hm), Ha, Nat.eqb_refl. cbn [bind]. apply K. auto.
  - intros Ha Hle. unfold bget_var, is_reduced. rewrite (members_full _ _ _ Hm), (members_red _ _ _ Hm), Ha, Nat.eqb_refl.
    destruct (Nat.eqb_spec (lsumn rs) (lsumn ns)) as [E|]; cbn [bind]; [|now apply K]. rewrite (proj2 (sums_le _ _ Hle)) by auto. now apply K.
Qed.
Lemma full_sizes_set n bs : full_sizes (map (b_set_n n) bs) = Some (repeat n (length bs)).
Proof. unfold full_sizes. induction bs as [|b bs IH]; cbn; auto. replace (b_n (b_set_n n b)) with (Some n) by (destruct b; reflexivity). cbn. now rewrite IH. Qed.
Lemma lsumn_repeat n k : lsumn (repeat n k) = k * n.
Proof. induction k; cbn; auto. Qed.
Lemma fit_blocks X ns bs a bs' : full_sizes bs = Some ns -> alen a = lsumn ns ->
  (do _ <- size_check (full_sizes bs) a; do qs <- bsplit bs a; zipM (b_fit X) bs qs) = Ok bs' ->
  length bs' = length bs /\ forall i b, nth_error bs i = Some b -> exists b', nth_error bs' i = Some b' /\ b_fit X b (var_rows ns i a) = Ok b'.
Proof.
  intros Hf Ha. assert (HL : length ns = length bs).
  { revert ns Hf Ha. unfold full_sizes. clear. intros ns Hf _. revert ns Hf. induction bs as [|b bs IH]; cbn; intros ns Hf; [injection Hf as <-; auto|].
    destruct (b_n b); cbn in Hf; [|discriminate]. destruct (allsome (map b_n bs)); cbn in Hf; [|discriminate]. injection Hf as <-. cbn. f_equal. auto. }
  unfold bsplit, is_reduced. rewrite Hf. cbn [size_check]. rewrite Ha, Nat.eqb_refl. cbn [bind]. intros E.
  split. { destruct bs as [|b bs]; [cbn in E; injection E as <-; auto|]. apply (zipM_nth (b_fit X) (b :: bs) (split_rows ns a) bs' b (V []) b); auto. rewrite split_rows_length. auto. }
  intros i b Hb. assert (Hi : i < length bs) by (apply nth_error_Some; congruence).
  pose proof (zipM_nth (b_fit X) bs (split_rows ns a) bs' b (V []) b) as Z. rewrite split_rows_length in Z. destruct (Z (eq_sym HL) E) as [L F].
  exists (nth i bs' b). split; [apply nth_error_nth'; lia|]. specialize (F i Hi). rewrite var_rows_nth in F by lia. rewrite (nth_error_nth _ _ b Hb) in F. exact F.
Qed.
Lemma C12_fit X bs a bs' : bs <> [] ->
  (forall ns, full_sizes bs = Some ns -> alen a = lsumn ns -> bm_fit X bs a = Ok bs' ->
    length bs' = length bs /\ forall i b, nth_error bs i = Some b -> exists b', nth_error bs' i = Some b' /\ b_fit X b (var_rows ns i a) = Ok b') /\
  (forall ns, full_sizes bs = Some ns -> alen a <> lsumn ns -> bm_fit X bs a = Err DimensionalityError) /\
  (forall m, full_sizes bs = None -> alen a = length bs * m -> bm_fit X bs a = Ok bs' ->
    length bs' = length bs /\ forall i b, nth_error bs i = Some b -> exists b', nth_error bs' i = Some b' /\ b_fit X (b_set_n m b) (var_rows (repeat m (length bs)) i a) = Ok b') /\
  (full_sizes bs = None -> (forall m, alen a <> length bs * m) -> bm_fit X bs a = Err DimensionalityError).
Proof.
  intros Hne. assert (Hp : 0 < length bs) by (destruct bs; [tauto|cbn; lia]). split; [|split; [|split]].
  - intros ns Hf Ha E. unfold bm_fit in E. rewrite Hf in E. cbn [bind] in E. now apply (fit_blocks X ns bs a bs').
  - intros ns Hf Ha. unfold bm_fit. rewrite Hf. cbn [bind]. rewrite Hf. cbn [size_check]. now rewrite (proj2 (Nat.eqb_neq _ _) Ha).
  - intros m Hf Ha E. unfold bm_fit in E. rewrite Hf, Ha in E. rewrite (Nat.mul_comm (length bs) m) in E. rewrite Nat.mod_mul, Nat.div_mul in E by lia. cbn [Nat.eqb bind] in E.
    destruct (fit_blocks X (repeat m (length bs)) (map (b_set_n m) bs) a bs') as [L F]; auto; [apply full_sizes_set|rewrite lsumn_repeat; lia|].
    rewrite map_length in L. split; auto. intros i b Hb. apply F. now rewrite nth_error_map, Hb.
  - intros Hf Ha. unfold bm_fit. rewrite Hf. destruct (Nat.eqb_spec (alen a mod length bs) 0) as [E|]; [|reflexivity].
    apply Nat.mod_divides in E; [|lia]. destruct E as [m E]. now destruct (Ha m).
Qed.

(* AffProofs.v -- lemmas about the affine operators of ParamModel.v *)
From Verif Require Import LinAlg MatAlg BlockAlg SpecOps SpecExt TupleLemmas TupleProofs TupleFinal OpsProofs JacProofs GalProofs EntriesProofs.
From Verif Require Export SpecParam.
#[local] Open Scope nat_scope.

Lemma cls_same a b : same_class a b = true <-> cls_of a = cls_of b.
Proof. destruct a, b; cbn; split; intros K; try discriminate; auto.
  - destruct d, d0; try discriminate; auto.
  - injection K as ->. destruct d0; auto. Qed.
Lemma cls_proto c : cls_of (proto c) = c. Proof. destruct c; reflexivity. Qed.
Lemma opdim_cls a b r m : cls_of a = cls_of b -> opdim a r m = opdim b r m.
Proof. destruct a, b; cbn; intros K; try discriminate; auto. injection K as ->; auto. Qed.
Lemma opdim_proto o r m : opdim (proto (cls_of o)) r m = opdim o r m.
Proof. apply opdim_cls. apply cls_proto. Qed.
Lemma datablock_proto o Q U : datablock (proto (cls_of o)) Q U = datablock o Q U.
Proof. destruct o; reflexivity. Qed.
Lemma datavec_cls a b q u : cls_of a = cls_of b -> datavec a q u = datavec b q u.
Proof. destruct a, b; cbn; intros K; try discriminate; auto. injection K as ->; auto. Qed.
Lemma cls_entries_eq a b : cls_of a = cls_of b -> entries2 a = entries2 b -> a = b.
Proof. intros. apply same_class_eq; auto. apply cls_same; auto. Qed.

Lemma op_dim_pos o r m : 0 < r -> 0 < m -> 0 < opdim o r m.
Proof. intros. destruct o; cbn [opdim]; try lia; try nia. apply opdim_pos; auto. Qed.

Lemma construct_ok c r m E : 0 < r -> is_mat r (opdim (proto c) r m) E -> exists o,
  construct c E = Ok o /\ wf_op r m o /\ cls_of o = c /\ entries2 o = E.
Proof. intros Hr HE. destruct (rebuild_same_ok r m (proto c) E Hr HE) as [o [H1 [H2 [H3 H4]]]].
  exists o. repeat split; auto. apply cls_same in H3. rewrite <- H3. apply cls_proto. Qed.
Lemma construct_id r m o : 0 < r -> wf_op r m o -> construct (cls_of o) (entries2 o) = Ok o.
Proof. intros Hr Hwf. destruct (construct_ok (cls_of o) r m (entries2 o) Hr) as [o' [H1 [H2 [H3 H4]]]].
  { rewrite opdim_proto. apply entries2_shape; auto. }
  rewrite H1. f_equal. apply cls_entries_eq; auto. Qed.

Lemma mapM_ok {A B} (f : A -> res B) g l : (forall x, In x l -> f x = Ok (g x)) -> mapM f l = Ok (map g l).
Proof. induction l; cbn; intros H; auto. rewrite H by auto. rewrite IHl by auto. auto. Qed.
Lemma mapM_Forall2 {A B} (f : A -> res B) l l' : mapM f l = Ok l' <-> Forall2 (fun a b => f a = Ok b) l l'.
Proof. revert l'. induction l as [|a l IH]; intros l'; cbn.
  - split; [intros [= <-]; constructor|inversion 1; auto].
  - split.
    + destruct (f a) eqn:E; [|discriminate]. destruct (mapM f l) eqn:E2; [|discriminate]. intros [= <-].
      constructor; auto. apply IH; auto.
    + inversion 1; subst. rewrite H2. destruct (IH l'0) as [_ ->]; auto. Qed.

(* a family of operators: all of one class and one size *)

Lemma family_shapes r m c ops : 0 < r -> family r m c ops -> same_shapes (map entries2 ops) = true.
Proof. intros Hr H. destruct ops as [|o ops]; auto. cbn. apply Forall_cons_iff in H. destruct H as [[Hw Hc] H].
  apply forallb_forall. intros E HE. apply in_map_iff in HE. destruct HE as [o' [<- Hin]].
  rewrite Forall_forall in H. destruct (H _ Hin) as [Hw' Hc'].
  assert (S1 := entries2_shape r m o Hw). assert (S2 := entries2_shape r m o' Hw').
  rewrite (opdim_cls o' o) in S2 by congruence.
  rewrite (is_mat_nrows _ _ _ S1), (is_mat_nrows _ _ _ S2), (ncols_is_mat _ _ _ S1), (ncols_is_mat _ _ _ S2) by auto.
  rewrite !Nat.eqb_refl. reflexivity. Qed.
Lemma family_construct r m c ops : 0 < r -> family r m c ops -> mapM (construct c) (map entries2 ops) = Ok ops.
Proof. intros Hr H. induction H as [|o ops [Hw Hc] H IH]; cbn; auto. rewrite <- Hc at 1. rewrite (construct_id r m) by auto.
  rewrite IH. reflexivity. Qed.
Lemma aff_set_ok r m a ops : 0 < r -> family r m (a_cls a) ops -> length ops = a_nterms a ->
  aff_set a (map entries2 ops) = Ok {| a_cls := a_cls a; a_theta := a_theta a; a_nterms := a_nterms a; a_pdim := a_pdim a;
                                       a_entries := Some ops |}.
Proof. intros Hr HF HL. unfold aff_set, aff_terms. rewrite (family_shapes r m (a_cls a)) by auto. cbn [negb].
  rewrite map_length, HL, Nat.eqb_refl. cbn [negb]. rewrite (family_construct r m) by auto. reflexivity. Qed.
Lemma family_blocks r m c ops : family r m c ops ->
  blocks r (map (fun _ => opdim (proto c) r m) ops) (map entries2 ops).
Proof. induction 1 as [|o ops [Hw Hc] H IH]; cbn; constructor; auto. rewrite <- Hc, opdim_proto. apply entries2_shape; auto. Qed.

(* set_entries(B, fromblock=True) *)
Lemma np_split_hstack r w Es : 0 < r -> Es <> [] -> blocks r (map (fun _ => w) Es) Es ->
  np_split (length Es) (hstack Es) = Ok Es.
Proof. intros Hr Hn HB. unfold np_split. assert (HH := is_mat_hstack r _ Es HB Hn).
  assert (HL : lsumn (map (fun _ => w) Es) = length Es * w).
  { clear. induction Es as [|E Es IH]; [reflexivity|]. change (lsumn (map (fun _ => w) (E :: Es))) with (w + lsumn (map (fun _ => w) Es)). rewrite IH. cbn; lia. }
  rewrite HL in HH. rewrite (ncols_is_mat _ _ _ HH) by auto. destruct Es as [|E0 Es0] eqn:EE; [congruence|].
  rewrite <- EE in *. assert (0 < length Es) by (rewrite EE; cbn; lia). destruct (Nat.eqb_spec (length Es) 0); [lia|].
  rewrite Nat.mul_comm, Nat.mod_mul by lia. cbn [negb Nat.eqb]. rewrite Nat.div_mul by lia. f_equal.
  clear EE E0 Es0 HL. revert HB HH. clear n H. intros HB _.
  apply (list_ext []); [rewrite map_length, seq_length; auto|]. intros k Hk. rewrite map_length, seq_length in Hk.
  rewrite (nth_map_in _ _ _ _ 0) by (rewrite seq_length; auto). rewrite seq_nth by auto. cbn [Nat.add].
  revert k Hk. induction Es as [|E Es IH]; intros k Hk; [cbn in Hk; lia|]. cbn [map] in HB. apply blocks_cons in HB.
  destruct HB as [HE HB]. destruct Es as [|E2 Es].
  - cbn in Hk. assert (k = 0) by lia. subst. cbn. unfold mcols. rewrite <- (map_id E) at 2. apply map_ext_in. intros row Hrow.
    destruct HE as [_ HF]. rewrite Forall_forall in HF. specialize (HF _ Hrow). rewrite <- HF.
    rewrite <- (app_nil_r row) at 2. apply slice_app_l.
  - assert (HN : E2 :: Es <> []) by congruence. rewrite (hstack_step r w _ _ _ HE HB HN).
    assert (HS := is_mat_hstack r _ _ HB HN). set (Rest := hstack (E2 :: Es)) in *.
    destruct k as [|k].
    + cbn [nth Nat.mul Nat.add]. unfold mcols, hcat. clearbody Rest. clear - HE HS.
      destruct HE as [H1 H2], HS as [H3 _]. subst r. revert Rest H3. induction E as [|row E IH]; intros [|row' Rest] H3; cbn in *; try discriminate; auto.
      apply Forall_cons_iff in H2. destruct H2 as [<- H2]. rewrite slice_app_l. f_equal. apply IH; auto.
    + change (nth (S k) (E :: E2 :: Es) []) with (nth k (E2 :: Es) []). rewrite <- IH by (auto; cbn in *; lia). fold Rest.
      replace (S k * w) with (w + k * w) by lia. replace (w + k * w + w) with (w + (k * w + w)) by lia.
      unfold mcols, hcat. clearbody Rest. clear - HE HS.
      destruct HE as [H1 H2], HS as [H3 _]. subst r. revert Rest H3. induction E as [|row E IH]; intros [|row' Rest] H3; cbn in *; try discriminate; auto.
      apply Forall_cons_iff in H2. destruct H2 as [<- H2]. rewrite slice_app_r. f_equal. apply IH; auto. Qed.

(* ---- evaluate ------------------------------------------------------------------------------------------ *)
Lemma fold_madd r c l : Forall (is_mat r c) l -> forall A, is_mat r c A ->
  is_mat r c (fold_left madd l A) /\ forall i j, mget (fold_left madd l A) i j = (mget A i j + lsum (map (fun B => mget B i j) l))%R.
Proof. induction 1 as [|B l HB H IH]; intros A HA; cbn [fold_left map].
  - split; auto. intros. unfold lsum; cbn; ring.
  - destruct (IH (madd A B)) as [H1 H2]; [mt|]. split; auto. intros. rewrite H2, lsum_cons, (mget_madd r c) by auto. ring. Qed.
Lemma lincomb_ok r c th Es : Es <> [] -> length th = length Es -> Forall (is_mat r c) Es ->
  is_mat r c (lincomb th Es) /\ forall i j, mget (lincomb th Es) i j = bsum (length Es) (fun k => (vget th k * mget (nth k Es []) i j)%R).
Proof. intros Hn HL HF. unfold lincomb. destruct Es as [|E Es]; [congruence|]. destruct th as [|t th]; [discriminate|].
  cbn [map2]. injection HL as HL. apply Forall_cons_iff in HF. destruct HF as [HE HF].
  assert (HF2 : Forall (is_mat r c) (map2 mscale th Es)).
  { clear - HF HL. revert th HL. induction HF; intros [|t th] HL; cbn; try discriminate; constructor; [mt|auto]. }
  destruct (fold_madd r c _ HF2 (mscale t E)) as [H1 H2]; [mt|]. split; auto. intros i j. rewrite H2.
  cbn [length]. rewrite bsum_S_l. cbn [vget nth]. rewrite (mget_mscale r c) by auto. f_equal.
  clear - HF HL. revert th HL. induction HF as [|E Es HE HF IH]; intros [|t th] HL; cbn [map2 map length]; try discriminate; auto.
  rewrite lsum_cons, bsum_S_l. cbn [vget nth]. rewrite (mget_mscale r c) by auto. f_equal. apply IH. injection HL; auto. Qed.


Lemma family_mats r m c ops : family r m c ops -> Forall (is_mat r (opdim (proto c) r m)) (map entries2 ops).
Proof. induction 1 as [|o ops [Hw Hc] H IH]; cbn; constructor; auto. rewrite <- Hc, opdim_proto. apply entries2_shape; auto. Qed.

Lemma evaluate_ok r m a ops mu th : 0 < r -> affine_of r m a ops ->
  match a_pdim a with Some p => plen mu = p | None => True end -> thetas a mu = Ok th -> length th = a_nterms a ->
  exists o, snd (aff_evaluate a mu) = Ok o /\ wf_op r m o /\ cls_of o = a_cls a /\
  forall i j, mget (entries2 o) i j = bsum (a_nterms a) (fun k => (vget th k * mget (entries2 (nth k ops (OConst []))) i j)%R).
Proof. intros Hr [He [HF [HL Hn]]] Hp Ht HLt. unfold aff_evaluate. rewrite He. cbn [snd].
  replace (plen mu =? _) with true. 2:{ symmetry. apply Nat.eqb_eq. destruct (a_pdim a); auto. }
  cbn [negb]. rewrite Ht. cbn [bind].
  assert (HM := family_mats r m _ ops HF).
  destruct (lincomb_ok r (opdim (proto (a_cls a)) r m) th (map entries2 ops)) as [H1 H2]; auto.
  { destruct ops; cbn in *; [lia|congruence]. } { rewrite map_length. lia. }
  destruct (construct_ok (a_cls a) r m _ Hr H1) as [o [E1 [E2 [E3 E4]]]]. exists o. repeat split; auto.
  intros i j. rewrite E4, H2, map_length, HL. apply bsum_ext. intros k Hk. do 3 f_equal.
  change (@nil (list R)) with (entries2 (OConst [])). apply map_nth. Qed.

(* evaluate(mu) acts as the combination of its terms *)
Lemma evaluate_apply r m a ops mu th o q u : 0 < r -> 0 < m -> affine_of r m a ops ->
  match a_pdim a with Some p => plen mu = p | None => True end -> thetas a mu = Ok th -> length th = a_nterms a ->
  is_vec r q -> is_vec m u -> snd (aff_evaluate a mu) = Ok o ->
  exists y ys, apply o (V q) (V u) = Ok (V y) /\ Forall2 (fun ok yk => apply ok (V q) (V u) = Ok (V yk)) ops ys /\ is_vec r y /\
  Forall (is_vec r) ys /\
  forall i, i < r -> vget y i = bsum (a_nterms a) (fun k => (vget th k * vget (nth k ys []) i)%R).
Proof. intros Hr Hm HA Hp Ht HLt Hq Hu Ho. destruct (evaluate_ok r m a ops mu th Hr HA Hp Ht HLt) as [o' [E1 [Hw [Hc HE]]]].
  rewrite Ho in E1. injection E1 as <-. destruct HA as [He [HF [HL Hn]]].
  exists (matvec (entries2 o) (datavec o q u)), (map (fun ok => matvec (entries2 ok) (datavec ok q u)) ops).
  split; [apply (apply_vec r m); auto|]. split; [|split; [|split]].
  - clear - HF Hr Hm Hq Hu. induction HF as [|x ops [Hw Hc] H IH]; cbn; constructor; auto. apply (apply_vec r m); auto.
  - apply (is_vec_matvec r (opdim o r m)). apply entries2_shape; auto.
  - apply Forall_forall. intros v Hv. apply in_map_iff in Hv. destruct Hv as [x [<- Hx]]. unfold family in HF. rewrite Forall_forall in HF.
    destruct (HF _ Hx) as [Hwx _]. apply (is_vec_matvec r (opdim x r m)). apply entries2_shape; auto.
  - intros i Hi. rewrite (vget_matvec r (opdim o r m)) by (auto using entries2_shape, is_vec_datavec).
    rewrite (bsum_ext _ _ (fun l => bsum (a_nterms a) (fun k => (vget th k * (mget (entries2 (nth k ops (OConst []))) i l * vget (datavec o q u) l))%R))).
    2:{ intros l Hl. rewrite HE. rewrite <- bsum_scal_r. apply bsum_ext. intros; ring. }
    rewrite bsum_swap. apply bsum_ext. intros k Hk. rewrite bsum_scal_l. f_equal.
    rewrite (nth_map_in _ _ _ _ (OConst [])) by lia. unfold family in HF. rewrite Forall_forall in HF.
    destruct (HF (nth k ops (OConst []))) as [Hwk Hck]; [apply nth_In; lia|].
    set (ok := nth k ops (OConst [])) in *. rewrite (vget_matvec r (opdim ok r m)) by (auto using entries2_shape, is_vec_datavec).
    rewrite (opdim_cls ok o) by congruence. apply bsum_ext. intros l Hl. rewrite (datavec_cls ok o) by congruence. reflexivity. Qed.

(* ---- the data block ------------------------------------------------------------------------------------- *)

Lemma datablock_noinput c Q U U' : has_inputs c = false -> datablock (proto c) Q U = datablock (proto c) Q U'.
Proof. destruct c; cbn; try discriminate; auto. Qed.
Lemma aff_columns_noinput a mus : has_inputs (a_cls a) = false -> forall Qs Us Us', length Us = length mus -> length Us' = length mus ->
  aff_columns a mus Qs Us = aff_columns a mus Qs Us'.
Proof. intros Hi. induction mus as [|mu mus IH]; intros [|Q Qs] [|U Us] [|U' Us'] H1 H2; cbn in *; try discriminate; auto.
  rewrite (datablock_noinput _ (M Q) (M U) (M U')) by auto. destruct (datablock _ (M Q) (M U')); auto. cbn [bind].
  destruct (thetas a mu); auto. cbn [bind]. rewrite (IH Qs Us Us') by lia. reflexivity. Qed.
Lemma Forall2_len {A B} (P : A -> B -> Prop) l l' : Forall2 P l l' -> length l = length l'.
Proof. induction 1; cbn; auto. Qed.

Lemma mscale_blocks c n D th : is_mat n c D -> Forall2 (fun d X => is_mat d c X) (map (fun _ => n) th) (map (fun t => mscale t D) th).
Proof. intros HD. induction th; cbn; constructor; auto. mt. Qed.
Lemma lsumn_const {A} (l : list A) n : lsumn (map (fun _ => n) l) = length l * n.
Proof. induction l as [|x l IH]; [reflexivity|]. change (lsumn (map (fun _ => n) (x :: l))) with (n + lsumn (map (fun _ => n) l)). rewrite IH. cbn; lia. Qed.

Lemma one_block r c d k th Es D : 0 < r -> 0 < d -> is_mat d k D -> Es <> [] -> length th = length Es ->
  Forall (is_mat r d) Es -> c = length Es * d ->
  is_mat c k (vstack (map (fun t => mscale t D) th)) /\
  matmul (hstack Es) (vstack (map (fun t => mscale t D) th)) = matmul (lincomb th Es) D.
Proof. intros Hr Hd HD HE HL HF ->.
  assert (HV := is_mat_vstack k _ _ (mscale_blocks k d D th HD)). rewrite lsumn_const, HL in HV. split; auto.
  assert (HB : blocks r (map (fun _ => d) th) Es).
  { clear - HF HL. revert th HL. induction HF; intros [|t th] HL; cbn; try discriminate; constructor; auto. apply IHHF. injection HL; auto. }
  assert (Hth : th <> []) by (intros ->; destruct Es; [congruence|discriminate]).
  rewrite (matmul_hstack_vstack r k _ _ _ HB (mscale_blocks k d D th HD)).
  2:{ apply Forall_forall. intros x Hx. apply in_map_iff in Hx. destruct Hx as [? [<- _]]. auto. }
  2:{ destruct th; [congruence|discriminate]. }
  destruct (lincomb_ok r d th Es HE HL HF) as [H1 H2].
  assert (HM : Forall (is_mat r k) (map2 matmul Es (map (fun t => mscale t D) th))).
  { clear - HF HD Hd HL. revert th HL. induction HF; intros [|t th] HL; cbn; try discriminate; constructor; [mt|]. apply IHHF. injection HL; auto. }
  apply (mat_ext r k); try mt. { apply is_mat_msum; auto. }
  intros i j Hi Hj. rewrite (mget_matmul r d k) by mt.
  rewrite (bsum_ext d _ (fun l => bsum (length Es) (fun e => (vget th e * mget (nth e Es []) i l * mget D l j)%R))).
  2:{ intros l Hl. rewrite H2, <- bsum_scal_r. reflexivity. }
  rewrite bsum_swap. clear - HF HD Hd HL Hi HM. revert th HL HM. induction HF as [|E Es HE HF IH]; intros [|t th] HL HM; cbn [map map2 msum fold_right length]; try discriminate.
  - rewrite mget_mzeros. reflexivity.
  - cbn [map map2] in HM. apply Forall_cons_iff in HM. destruct HM as [HM1 HM2]. fold (msum r k (map2 matmul Es (map (fun t => mscale t D) th))).
    rewrite (mget_madd r k) by (auto using is_mat_msum). rewrite bsum_S_l. rewrite IH by (auto; injection HL; auto). f_equal.
    rewrite (mget_matmul r d k) by mt. apply bsum_ext. intros l Hl. rewrite (mget_mscale d k) by auto. cbn [vget nth]. ring. Qed.


Lemma aff_columns_ok r m a ops : 0 < r -> 0 < m -> affine_of r m a ops -> forall mus ks Qs Us,
  length ks = length mus -> datashape r m ks Qs Us -> Forall (good_param a) mus ->
  exists cols Ys, aff_columns a mus Qs Us = Ok cols /\ blocks (aff_opdim a r m) ks cols /\ blocks r ks Ys /\
   map (matmul (hstack (map entries2 ops))) cols = Ys /\
   forall b, b < length mus -> exists o, snd (aff_evaluate a (nth b mus (PS 0))) = Ok o /\
     apply o (M (nth b Qs [])) (M (nth b Us [])) = Ok (M (nth b Ys [])).
Proof. intros Hr Hm HA. assert (HA' := HA). destruct HA' as [He [HF [HL Hn]]].
  assert (HM := family_mats r m _ ops HF). assert (HNE : map entries2 ops <> []) by (destruct ops; cbn in *; [lia|congruence]).
  assert (Hd : 0 < opdim (proto (a_cls a)) r m) by (apply op_dim_pos; auto).
  induction mus as [|mu mus IH]; intros ks Qs Us Hks [HQ HU] Hth.
  - destruct ks; [|discriminate]. inversion HQ; inversion HU; subst. exists [], []. repeat split; try constructor. cbn; intros; lia.
  - destruct ks as [|k ks]; [discriminate|]. inversion HQ as [|? Q ? Qs' HQ1 HQ2]; subst. inversion HU as [|? U ? Us' HU1 HU2]; subst.
    apply Forall_cons_iff in Hth. destruct Hth as [[Hp [th [Ht HLt]]] Hth].
    destruct (IH ks Qs' Us') as [cols [Ys [E1 [E2 [E3 [E4 E5]]]]]]; [auto|split; auto|auto|].
    cbn [aff_columns]. rewrite (datablock_ok r m k) by auto. cbn [bind]. rewrite Ht. cbn [bind]. rewrite E1. cbn [bind].
    assert (HD := datamat_shape r m k (proto (a_cls a)) Q U Hr HQ1 HU1).
    destruct (one_block r (aff_opdim a r m) _ k th (map entries2 ops) _ Hr Hd HD HNE) as [B1 B2]; auto.
    { rewrite map_length; lia. } { unfold aff_opdim. rewrite map_length. lia. }
    destruct (evaluate_ok r m a ops mu th Hr HA Hp Ht HLt) as [o [F1 [F2 [F3 F4]]]].
    assert (FE : entries2 o = lincomb th (map entries2 ops)).
    { destruct (lincomb_ok r (opdim (proto (a_cls a)) r m) th (map entries2 ops)) as [L1 L2]; auto.
      { rewrite map_length. lia. }
      apply (mat_ext r (opdim (proto (a_cls a)) r m)); auto.
      { rewrite <- F3, opdim_proto. apply entries2_shape; auto. }
      intros i j Hi Hj. rewrite F4, L2, map_length, HL. apply bsum_ext. intros l Hl. do 3 f_equal. symmetry.
      change (@nil (list R)) with (entries2 (OConst [])). apply map_nth. }
    eexists. eexists. split; [reflexivity|]. split; [apply blocks_cons; split; eauto|].
    split; [|split; [reflexivity|]].
    + cbn [map]. apply blocks_cons. rewrite B2, E4. split; auto.
      destruct (lincomb_ok r (opdim (proto (a_cls a)) r m) th (map entries2 ops)) as [L1 L2]; auto. { rewrite map_length. lia. } mt.
    + intros [|b] Hb; cbn [nth map].
      * exists o. split; auto. rewrite (apply_mat r m k) by auto. rewrite B2, FE. do 3 f_equal.
        rewrite <- F3. destruct o; reflexivity.
      * rewrite E4. apply E5. cbn in Hb; lia. Qed.

Lemma aff_datablock_ok r m a ops mus ks Qs Us : 0 < r -> 0 < m -> affine_of r m a ops -> mus <> [] ->
  length ks = length mus -> datashape r m ks Qs Us -> Forall (good_param a) mus ->
  exists D Ys, aff_datablock a mus Qs Us = Ok D /\ is_mat (aff_opdim a r m) (lsumn ks) D /\
   blocks r ks Ys /\ matmul (hstack (map entries2 ops)) D = hstack Ys /\
   forall b, b < length mus -> exists o, snd (aff_evaluate a (nth b mus (PS 0))) = Ok o /\
     apply o (M (nth b Qs [])) (M (nth b Us [])) = Ok (M (nth b Ys [])).
Proof. intros Hr Hm HA Hne Hks HD Hg. destruct (aff_columns_ok r m a ops Hr Hm HA mus ks Qs Us Hks HD Hg) as [cols [Ys [E1 [E2 [E3 [E4 E5]]]]]].
  assert (EQ : aff_columns a mus Qs (if has_inputs (a_cls a) then Us else map (fun _ => []) mus) = Ok cols).
  { destruct (has_inputs (a_cls a)) eqn:Hi; auto. rewrite <- E1. apply aff_columns_noinput; auto.
    - apply map_length.
    - destruct HD as [_ HU]. apply Forall2_len in HU. lia. }
  unfold aff_datablock. rewrite EQ. cbn [bind]. assert (Hc : cols <> []).
  { intros ->. apply Forall2_len in E2. destruct mus; [congruence|cbn in *; lia]. }
  exists (hstack cols), Ys. destruct cols as [|c0 cols'] eqn:EC; [congruence|]. rewrite <- EC in *.
  split; auto. split; [apply is_mat_hstack; auto|]. split; auto. split; auto.
  rewrite <- E4. destruct HA as [He [HF [HL Hn]]]. apply (matmul_hstack_r r (aff_opdim a r m) ks); auto.
  - assert (HB := family_blocks r m _ ops HF). unfold aff_opdim. rewrite <- HL, <- (lsumn_const ops).
    apply is_mat_hstack; auto. destruct ops; cbn in *; [lia|congruence].
  - unfold aff_opdim. apply Nat.mul_pos_pos; auto. apply op_dim_pos; auto. Qed.

(* ---- galerkin commutes with evaluate ---------------------------------------------------------------------- *)
Lemma galerkin_cls solve junk o Vr Wr g : galerkin solve junk o Vr Wr = Ok g -> cls_of g = cls_of o.
Proof. unfold galerkin. destruct (negb _); [discriminate|]. destruct (negb _); [discriminate|].
  destruct (galerkin_func _ _ _); [|discriminate]. cbn [bind]. destruct (matmul_r _ a); [|discriminate]. cbn [bind].
  destruct (matmul_r _ Vr); [|discriminate]. cbn [bind]. destruct (if allclose _ _ then _ else _); [|discriminate]. cbn [bind].
  destruct o; cbn [rebuild]; try (intros [= <-]; reflexivity).
  - destruct (_ =? _); [|discriminate]. intros [= <-]. reflexivity.
  - destruct (_ =? _). { destruct (compress d _); [|discriminate]. intros [= <-]. reflexivity. }
    destruct (_ =? _); [|discriminate]. intros [= <-]. reflexivity.
  - destruct (_ =? _); [|discriminate]. intros [= <-]. reflexivity. Qed.

Section AffGal.
  Variables (solve : mat -> mat -> res mat) (junk : nat -> vec) (n r m : nat) (a : aff) (ops : list op) (Vr : mat) (Wr : option mat) (P : mat).
  Hypotheses (Hsolve : solve_spec solve) (Hj : forall k, length (junk k) = k) (Hn : 0 < n) (Hr : 0 < r) (Hm : 0 < m).
  Hypotheses (HA : affine_of n m a ops) (HV : is_mat n r Vr) (HW : is_mat n r (testbasis Vr Wr)).
  Hypothesis Hclose : matmul (mT (testbasis Vr Wr)) Vr = eye r \/ allclose (matmul (mT (testbasis Vr Wr)) Vr) (eye r) = false.
  Hypotheses (HP : is_mat r r P) (HPi : matmul P (matmul (mT (testbasis Vr Wr)) Vr) = eye r).

  Lemma affgal_terms ag : aff_galerkin solve junk a Vr Wr = Ok ag -> exists gs,
    affine_of r m ag gs /\ a_theta ag = a_theta a /\ a_nterms ag = a_nterms a /\ a_cls ag = a_cls a /\ a_pdim ag = None /\
    Forall2 (fun o g => galerkin solve junk o Vr Wr = Ok g) ops gs.
  Proof. destruct HA as [He [HF [HL Hnt]]]. unfold aff_galerkin. rewrite He. destruct (mapM _ ops) as [gs|] eqn:E; [|discriminate]. cbn [bind].
    apply mapM_Forall2 in E. intros Hag.
    assert (HG : family r m (a_cls a) gs).
    { clear - E HF Hsolve Hj Hn Hr Hm HV HW Hclose. unfold family in *. induction E as [|o g ops gs Hg E IH]; constructor.
      - apply Forall_cons_iff in HF. destruct HF as [[Hw Hc] HF]. split.
        + eapply (galerkin_commutes solve junk n r m o Vr Wr); eauto.
        + rewrite (galerkin_cls _ _ _ _ _ _ Hg). auto.
      - apply IH. apply Forall_cons_iff in HF. tauto. }
    rewrite (aff_set_ok r m) in Hag; auto. 2:{ cbn. rewrite <- (Forall2_len _ _ _ E). auto. }
    injection Hag as <-. exists gs. cbn. repeat split; auto. rewrite <- (Forall2_len _ _ _ E). auto. Qed.

  Lemma affine_galerkin_commutes ag mu th : aff_galerkin solve junk a Vr Wr = Ok ag ->
    match a_pdim a with Some p => plen mu = p | None => True end -> thetas a mu = Ok th -> length th = a_nterms a ->
    exists o og, snd (aff_evaluate a mu) = Ok o /\ snd (aff_evaluate ag mu) = Ok og /\
    forall g, galerkin solve junk o Vr Wr = Ok g -> forall q u, is_vec r q -> is_vec m u ->
      apply og (V q) (V u) = apply g (V q) (V u).
  Proof. intros Hag Hp Ht HLt. destruct (affgal_terms ag Hag) as [gs [HAg [Eth [Ent [Ec [Epd HG]]]]]].
    assert (Htg : thetas ag mu = Ok th) by (unfold thetas in *; rewrite Eth, Ent; auto).
    destruct (evaluate_ok n m a ops mu th Hn HA Hp Ht HLt) as [o [E1 [Hwo _]]].
    destruct (evaluate_ok r m ag gs mu th Hr HAg) as [og [E2 [Hwg _]]]; [rewrite Epd; auto|auto|congruence|].
    exists o, og. repeat split; auto. intros g Hg q u Hq Hu.
    destruct (galerkin_inverse solve junk n r m o Vr Wr Hsolve Hj Hn Hr Hm Hwo HV HW Hclose g P HP HPi Hg q u Hq Hu) as [y [A1 A2]].
    rewrite A2. destruct (evaluate_apply n m a ops mu th o (matvec Vr q) u Hn Hm HA Hp Ht HLt) as [y' [ys [B1 [B2 [B3 [B3' B4]]]]]]; auto.
    { apply (is_vec_matvec n r); auto. }
    rewrite A1 in B1. injection B1 as <-.
    destruct (evaluate_apply r m ag gs mu th og q u Hr Hm HAg) as [z [zs [C1 [C2 [C3 [C3' C4]]]]]]; auto; [rewrite Epd; auto|congruence|].
    rewrite C1. do 2 f_equal. apply (vec_ext r); auto.
    { apply (is_vec_matvec r r); auto. }
    assert (HWT : is_mat r n (mT (testbasis Vr Wr))) by mt.
    intros i Hi. rewrite C4 by auto. rewrite Ent. rewrite (vget_matvec r r) by mt.
    rewrite (bsum_ext r _ (fun l => bsum (a_nterms a) (fun k => (mget P i l * (vget th k * vget (matvec (mT (testbasis Vr Wr)) (nth k ys [])) l))%R))).
    2:{ intros l Hl. rewrite bsum_scal_l. f_equal. rewrite (vget_matvec r n) by auto.
        rewrite (bsum_ext n _ (fun x => bsum (a_nterms a) (fun k => (vget th k * (mget (mT (testbasis Vr Wr)) l x * vget (nth k ys []) x))%R))).
        2:{ intros x Hx. rewrite B4 by auto. rewrite <- bsum_scal_l. apply bsum_ext. intros; ring. }
        rewrite bsum_swap. apply bsum_ext. intros k Hk. rewrite bsum_scal_l. f_equal. rewrite (vget_matvec r n); auto.
        rewrite Forall_forall in B3'. apply B3'. apply nth_In. rewrite <- (Forall2_len _ _ _ B2). destruct HA as [_ [_ [HL _]]]. lia. }
    rewrite bsum_swap. apply bsum_ext. intros k Hk.
    rewrite (bsum_ext r _ (fun l => (vget th k * (mget P i l * vget (matvec (mT (testbasis Vr Wr)) (nth k ys [])) l))%R)) by (intros; ring).
    rewrite bsum_scal_l. f_equal.
    destruct HA as [_ [HF [HL Hnt]]].
    set (ok := nth k ops (OConst [])). set (gk := nth k gs (OConst [])).
    assert (Hk1 : k < length ops) by lia.
    assert (Hgk : galerkin solve junk ok Vr Wr = Ok gk).
    { unfold ok, gk. clear - HG Hk1. revert k Hk1. induction HG; intros k Hk1; cbn in Hk1; [lia|]. destruct k; cbn; auto. apply IHHG. lia. }
    assert (Hok : apply ok (V (matvec Vr q)) (V u) = Ok (V (nth k ys []))).
    { unfold ok. clear - B2 Hk1. revert k Hk1. induction B2; intros k Hk1; cbn in Hk1; [lia|]. destruct k; cbn; auto. apply IHB2. lia. }
    assert (Hzk : apply gk (V q) (V u) = Ok (V (nth k zs []))).
    { assert (Hk2 : k < length gs) by (rewrite <- (Forall2_len _ _ _ HG); auto). unfold gk. clear - C2 Hk2. revert k Hk2.
      induction C2; intros k Hk2; cbn in Hk2; [lia|]. destruct k; cbn; auto. apply IHC2. lia. }
    assert (Hwk : wf_op n m ok). { unfold family in HF. rewrite Forall_forall in HF. apply HF. apply nth_In; auto. }
    destruct (galerkin_inverse solve junk n r m ok Vr Wr Hsolve Hj Hn Hr Hm Hwk HV HW Hclose gk P HP HPi Hgk q u Hq Hu) as [y2 [D1 D2]].
    rewrite Hok in D1. injection D1 as <-. rewrite Hzk in D2. injection D2 as ->.
    rewrite (vget_matvec r r) by mt. reflexivity. Qed.
End AffGal.

Lemma aff_set_block_ok r m a ops : 0 < r -> family r m (a_cls a) ops -> length ops = a_nterms a -> 0 < a_nterms a ->
  exists a', aff_set_block a (hstack (map entries2 ops)) = Ok a' /\ affine_of r m a' ops /\
    a_cls a' = a_cls a /\ a_theta a' = a_theta a /\ a_nterms a' = a_nterms a /\ a_pdim a' = a_pdim a.
Proof. intros Hr HF HL Hn. unfold aff_set_block. replace (np_split (a_nterms a)) with (np_split (length (map entries2 ops))) by (rewrite map_length, HL; auto).
  rewrite (np_split_hstack r (opdim (proto (a_cls a)) r m)); auto.
  - cbn [bind]. rewrite (aff_set_ok r m) by auto. eexists. split; [reflexivity|]. repeat split; auto; cbn; lia.
  - destruct ops; cbn in *; [lia|congruence].
  - rewrite map_map. apply family_blocks; auto. Qed.

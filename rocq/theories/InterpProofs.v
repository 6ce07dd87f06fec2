(* InterpProofs.v -- lemmas about the interpolated operators of ParamModel.v *)
From Coq Require Import Permutation Sorted.
From Verif Require Import LinAlg MatAlg BlockAlg SpecOps SpecExt TupleFinal OpsProofs EntriesProofs.
From Verif Require Export AffProofs.
#[local] Open Scope nat_scope.

(* ---- argsort ------------------------------------------------------------------------------------------ *)
Lemma ins_perm key i l : Permutation (ins key i l) (i :: l).
Proof. induction l as [|j l IH]; cbn; auto. destruct (Rle_dec _ _); auto.
  rewrite IH. apply perm_swap. Qed.
Lemma argsort_perm v : Permutation (argsort v) (seq 0 (length v)).
Proof. unfold argsort. induction (seq 0 (length v)) as [|i l IH]; cbn; auto. rewrite ins_perm, IH. auto. Qed.
Lemma ins_sorted (key : nat -> R) i l : StronglySorted (fun a b => (key a <= key b)%R) l -> StronglySorted (fun a b => (key a <= key b)%R) (ins key i l).
Proof. induction 1 as [|j l H IH HF]; cbn; [repeat constructor|]. destruct (Rle_dec _ _) as [Hle|Hle].
  - constructor; [constructor; auto|]. constructor; auto. eapply Forall_impl; [|exact HF]. cbn; intros; lra.
  - constructor; auto. rewrite Forall_forall. intros x Hx. rewrite ins_perm in Hx. destruct Hx as [<-|Hx]; [lra|].
    rewrite Forall_forall in HF. auto. Qed.
Lemma argsort_sorted v : StronglySorted (fun a b => (vget v a <= vget v b)%R) (argsort v).
Proof. unfold argsort. induction (seq 0 (length v)); cbn; [constructor|]. apply ins_sorted; auto. Qed.
Lemma sorted_nth {A} (P : A -> A -> Prop) l d : StronglySorted P l -> forall i j, i < j -> j < length l -> P (nth i l d) (nth j l d).
Proof. induction 1 as [|x l H IH HF]; intros i j Hij Hj; cbn in Hj; [lia|]. destruct j as [|j]; [lia|].
  destruct i as [|i]; cbn.
  - rewrite Forall_forall in HF. apply HF. apply nth_In. lia.
  - apply IH; lia. Qed.
Lemma argsort_length v : length (argsort v) = length v.
Proof. rewrite (Permutation_length (argsort_perm v)). apply seq_length. Qed.
Lemma argsort_lt v k : k < length v -> nth k (argsort v) 0 < length v.
Proof. intros Hk. assert (In (nth k (argsort v) 0) (argsort v)) by (apply nth_In; rewrite argsort_length; auto).
  apply (Permutation_in _ (argsort_perm v)) in H. apply in_seq in H. lia. Qed.
Lemma argsort_onto v i : i < length v -> exists k, k < length v /\ nth k (argsort v) 0 = i.
Proof. intros Hi. assert (In i (argsort v)). { apply (Permutation_in _ (Permutation_sym (argsort_perm v))). apply in_seq. lia. }
  apply (In_nth _ _ 0) in H. destruct H as [k [Hk E]]. rewrite argsort_length in Hk. eauto. Qed.
Lemma argsort_increasing v : NoDup v -> strictly_inc (take_at 0%R v (argsort v)).
Proof. intros HN i j Hij Hj. unfold take_at in *. rewrite map_length, argsort_length in Hj.
  unfold vget. rewrite !(nth_map_in _ _ _ _ 0) by (rewrite argsort_length; lia).
  assert (HS := sorted_nth _ _ 0 (argsort_sorted v) i j Hij). rewrite argsort_length in HS. specialize (HS Hj).
  unfold vget in HS. destruct (Req_dec (nth (nth i (argsort v) 0) v 0%R) (nth (nth j (argsort v) 0) v 0%R)) as [E|E]; [|lra].
  exfalso. rewrite NoDup_nth in HN. apply HN in E; try (apply argsort_lt; lia).
  assert (ND : NoDup (argsort v)) by (apply (Permutation_NoDup (Permutation_sym (argsort_perm v))), seq_NoDup).
  rewrite NoDup_nth in ND. apply ND in E; rewrite ?argsort_length; lia. Qed.

(* ---- building and evaluating -------------------------------------------------------------------------- *)
Lemma take_at_map {A B} (f : A -> B) (d : A) l ix : (forall i, In i ix -> i < length l) ->
  take_at (f d) (map f l) ix = map f (take_at d l ix).
Proof. intros H. unfold take_at. rewrite map_map. apply map_ext. intros i. apply map_nth. Qed.

Section Ev.
  Variables (cubic linearnd : iclass).
  Hypothesis Hcubic : forall xs, 2 <= length xs -> strictly_inc xs -> interpolates cubic (map PS xs) (PS 0).

  Lemma scalars_all xs : forallb is_scalar (map PS xs) = true.
  Proof. induction xs; auto. Qed.
  Lemma unscalar_all xs : map unscalar (map PS xs) = xs.
  Proof. rewrite map_map. cbn. apply map_id. Qed.

  Lemma default_sorted xs (es : list mat) : NoDup xs -> 2 <= length xs -> length es = length xs ->
    exists f, cubic (take_at (PS 0) (map PS xs) (argsort xs)) (take_at [] es (argsort xs)) = Ok f /\
    forall i, i < length xs -> f (PS (vget xs i)) = Ok (nth i es []).
  Proof. intros HN H2 HL.
    rewrite take_at_map by (intros i Hi; apply (Permutation_in _ (argsort_perm xs)) in Hi; apply in_seq in Hi; lia).
    destruct (Hcubic (take_at 0%R xs (argsort xs))) with (es := take_at [] es (argsort xs)) as [f [Hf Hv]].
    - rewrite take_at_length, argsort_length. auto.
    - apply argsort_increasing; auto.
    - rewrite map_length, !take_at_length. auto.
    - exists f. split; auto. intros i Hi. destruct (argsort_onto xs i Hi) as [k [Hk E]]. specialize (Hv k).
      rewrite map_length, take_at_length, argsort_length in Hv. specialize (Hv Hk).
      rewrite map_nth in Hv. unfold take_at in Hv. rewrite !(nth_map_in _ _ _ _ 0) in Hv by (rewrite argsort_length; auto).
      rewrite E in Hv. exact Hv. Qed.

  (* whatever happened to the object before, a successful set_entries with the default interpolator *)
  Lemma i_set_default r m t xs ops : 0 < r -> family r m (i_cls t) ops -> i_params t = Some (map PS xs) -> i_pdim t = Some 1 ->
    i_iclass t = None -> NoDup xs -> 2 <= length xs -> length ops = length xs ->
    exists t', i_set cubic linearnd t (map entries2 ops) = (t', Ok tt) /\ i_entries t' = Some ops /\ i_params t' = i_params t /\ i_cls t' = i_cls t /\ i_iclass t' = Some cubic /\ i_pdim t' = Some 1 /\
    forall i, i < length xs -> i_evaluate t' (PS (vget xs i)) = Ok (nth i ops (OConst [])).
  Proof. intros Hr HF Hp Hd Hi HN H2 HL. unfold i_set. rewrite Hp, Hi. rewrite (family_shapes r m (i_cls t)) by auto.
    cbn [negb]. rewrite !map_length, HL, Nat.eqb_refl. cbn [negb]. rewrite (family_construct r m) by auto.
    unfold i_set_interp. cbn [i_entries i_params i_cls i_pdim]. rewrite scalars_all, unscalar_all.
    destruct (default_sorted xs (map entries2 ops) HN H2) as [f [Hf Hv]]; [rewrite map_length; auto|].
    rewrite Hf. eexists. split; [reflexivity|]. cbn. repeat split; auto. intros i Hlt. unfold i_evaluate. cbn.
    rewrite Hd. cbn. rewrite Hv by auto. cbn. change (@nil (list R)) with (entries2 (OConst [])). rewrite map_nth.
    unfold family in HF. rewrite Forall_forall in HF. destruct (HF (nth i ops (OConst []))) as [Hw Hc]; [apply nth_In; lia|].
    rewrite <- Hc. apply (construct_id r m); auto. Qed.

  (* ... and with a class given by the user, on any parameters that class interpolates *)
  Lemma i_set_user r m t p ps ops C : 0 < r -> family r m (i_cls t) ops -> i_params t = Some ps -> i_pdim t = Some p ->
    i_iclass t = Some C -> interpolates C ps (PS 0) -> length ops = length ps ->
    Forall (fun x => plen x = p /\ (p = 1 -> is_scalar x = true)) ps ->
    exists t', i_set cubic linearnd t (map entries2 ops) = (t', Ok tt) /\ i_entries t' = Some ops /\ i_params t' = i_params t /\ i_cls t' = i_cls t /\
    forall i, i < length ps -> i_evaluate t' (nth i ps (PS 0)) = Ok (nth i ops (OConst [])).
  Proof. intros Hr HF Hp Hd Hi HC HL HP. unfold i_set. rewrite Hp, Hi. rewrite (family_shapes r m (i_cls t)) by auto.
    cbn [negb]. rewrite !map_length, HL, Nat.eqb_refl. cbn [negb]. rewrite (family_construct r m) by auto.
    unfold i_set_interp. cbn [i_entries i_params i_cls i_pdim].
    destruct (HC (map entries2 ops)) as [f [Hf Hv]]; [rewrite map_length; auto|].
    rewrite Hf. eexists. split; [reflexivity|]. cbn. repeat split; auto. intros i Hlt. unfold i_evaluate. cbn.
    rewrite Hd. rewrite Forall_forall in HP. destruct (HP (nth i ps (PS 0))) as [Hl Hs]; [apply nth_In; auto|].
    rewrite Hl, Nat.eqb_refl. cbn [negb].
    assert (E : (if p =? 1 then PS (unscalar (nth i ps (PS 0))) else nth i ps (PS 0)) = nth i ps (PS 0)).
    { destruct (Nat.eqb_spec p 1) as [Ep|]; auto. specialize (Hs Ep). destruct (nth i ps (PS 0)); [reflexivity|discriminate]. }
    rewrite E, Hv by auto. cbn. change (@nil (list R)) with (entries2 (OConst [])). rewrite map_nth.
    unfold family in HF. rewrite Forall_forall in HF. destruct (HF (nth i ops (OConst []))) as [Hw Hc]; [apply nth_In; lia|].
    rewrite <- Hc. apply (construct_id r m); auto. Qed.

  (* the constructor, default interpolator *)
  Lemma i_init_default r m c xs ops : 0 < r -> family r m c ops -> NoDup xs -> 2 <= length xs -> length ops = length xs ->
    exists t, i_init cubic linearnd c (map PS xs) (map entries2 ops) None = Ok t /\ i_entries t = Some ops /\
    i_params t = Some (map PS xs) /\ i_cls t = c /\ i_iclass t = Some cubic /\ i_pdim t = Some 1 /\
    forall i, i < length xs -> i_evaluate t (PS (vget xs i)) = Ok (nth i ops (OConst [])).
  Proof. intros Hr HF HN H2 HL. unfold i_init. destruct xs as [|x0 xs0] eqn:EX; [cbn in H2; lia|]. rewrite <- EX in *.
    assert (EP : i_set_params (i_new c None) (map PS xs) = Ok {| i_cls := c; i_pdim := Some 1; i_params := Some (map PS xs);
       i_entries := None; i_interp := None; i_iclass := None |}).
    { unfold i_set_params, i_new. cbn [i_interp]. replace (map PS xs) with (PS x0 :: map PS xs0) by (rewrite EX; reflexivity).
      cbn [pndim plen]. replace (forallb _ (PS x0 :: map PS xs0)) with true.
      2:{ symmetry. apply forallb_forall. intros p Hp. change (PS x0 :: map PS xs0) with (map PS (x0 :: xs0)) in Hp.
          apply in_map_iff in Hp. destruct Hp as [y [<- _]]. reflexivity. }
      cbn [negb Nat.eqb i_cls i_entries i_iclass]. do 2 f_equal. f_equal.
      change (PS x0 :: map PS xs0) with (map PS (x0 :: xs0)). rewrite map_map. reflexivity. }
    rewrite EP. cbn [bind]. destruct (i_set_default r m {| i_cls := c; i_pdim := Some 1; i_params := Some (map PS xs);
       i_entries := None; i_interp := None; i_iclass := None |} xs ops Hr) as [t' [E1 [E2 [E3 [E4 [E5 [E6 E7]]]]]]]; cycle 7.
    - eexists. rewrite E1. split; [reflexivity|]. repeat split; eauto.
    - exact HF.
    - reflexivity.
    - reflexivity.
    - reflexivity.
    - auto.
    - auto.
    - auto. Qed.
End Ev.

(* ---- block diagonal data ---------------------------------------------------------------------------------- *)
Lemma blockdiag2_shape n1 n2 k1 k2 A B : 0 < n1 -> 0 < n2 -> is_mat n1 k1 A -> is_mat n2 k2 B ->
  is_mat (n1 + n2) (k1 + k2) (blockdiag2 A B).
Proof. intros H1 H2 HA HB. unfold blockdiag2. rewrite (is_mat_nrows _ _ _ HA), (is_mat_nrows _ _ _ HB), (ncols_is_mat _ _ _ HA), (ncols_is_mat _ _ _ HB) by auto.
  apply is_mat_app; mt. Qed.
Lemma matmul_zeros_r r n k A : is_mat r n A -> 0 < n -> matmul A (mzeros n k) = mzeros r k.
Proof. intros HA Hn. apply (mat_ext r k); try mt. intros i j Hi Hj. rewrite (mget_matmul r n k) by mt. rewrite mget_mzeros.
  apply bsum_0. intros. rewrite mget_mzeros. ring. Qed.
Lemma matmul_blockdiag2 r n1 n2 k1 k2 A B C D : 0 < n1 -> 0 < n2 -> is_mat r n1 A -> is_mat r n2 B ->
  is_mat n1 k1 C -> is_mat n2 k2 D -> matmul (hcat A B) (blockdiag2 C D) = hcat (matmul A C) (matmul B D).
Proof. intros H1 H2 HA HB HC HD. unfold blockdiag2.
  rewrite (is_mat_nrows _ _ _ HC), (is_mat_nrows _ _ _ HD), (ncols_is_mat _ _ _ HC), (ncols_is_mat _ _ _ HD) by auto.
  rewrite (matmul_hcat_app r n1 n2 (k1 + k2)) by mt.
  rewrite (matmul_hcat_r r n1 k1 k2), (matmul_hcat_r r n2 k1 k2) by mt.
  rewrite (matmul_zeros_r r n1), (matmul_zeros_r r n2) by auto.
  apply (mat_ext r (k1 + k2)); try mt. intros i j Hi Hj. rewrite (mget_madd r (k1 + k2)) by mt.
  rewrite !(mget_hcat r k1 k2) by mt. destruct (Nat.ltb j k1); rewrite mget_mzeros; ring. Qed.

Lemma fold_blockdiag r ns : Forall (lt 0) ns -> forall ks As Ds, blocks r ns As -> length ks = length ns ->
  Forall2 (fun nk D => is_mat (fst nk) (snd nk) D) (combine ns ks) Ds ->
  forall n0 k0 A0 D0, 0 < n0 -> is_mat r n0 A0 -> is_mat n0 k0 D0 ->
  matmul (fold_left hcat As A0) (fold_left blockdiag2 Ds D0) = fold_left hcat (map2 matmul As Ds) (matmul A0 D0) /\
  is_mat (n0 + lsumn ns) (k0 + lsumn ks) (fold_left blockdiag2 Ds D0).
Proof. induction 1 as [|n ns Hn HF IH]; intros ks As Ds HA HL HD n0 k0 A0 D0 H0 HA0 HD0.
  - destruct ks; [|discriminate]. inversion HA; subst. inversion HD; subst. cbn. rewrite !Nat.add_0_r. auto.
  - destruct ks as [|k ks]; [discriminate|]. inversion HA as [|? A ? As' HA1 HA2]; subst. cbn [combine] in HD.
    inversion HD as [|? D ? Ds' HD1 HD2]; subst. cbn in HD1. cbn [fold_left map2].
    destruct (IH ks As' Ds' HA2 ltac:(cbn in HL; lia) HD2 (n0 + n) (k0 + k) (hcat A0 A) (blockdiag2 D0 D)) as [E1 E2].
    + lia.
    + mt.
    + apply blockdiag2_shape; auto.
    + rewrite E1. split.
      * rewrite (matmul_blockdiag2 r n0 n k0 k) by auto. reflexivity.
      * change (lsumn (n :: ns)) with (n + lsumn ns). change (lsumn (k :: ks)) with (k + lsumn ks). rewrite !Nat.add_assoc. auto. Qed.

Lemma i_blocks_noinput c : has_inputs c = false -> forall Qs Us Us', length Us = length Qs -> length Us' = length Qs ->
  i_blocks c Qs Us = i_blocks c Qs Us'.
Proof. intros Hi. induction Qs as [|Q Qs IH]; intros [|U Us] [|U' Us'] H1 H2; cbn in *; try discriminate; auto.
  rewrite (datablock_noinput c (M Q) (M U) (M U')) by auto. rewrite (IH Us Us') by lia. reflexivity. Qed.

Lemma i_blocks_ok r m c : 0 < r -> 0 < m -> forall ks Qs Us, datashape r m ks Qs Us ->
  i_blocks c Qs Us = Ok (map2 (datamat (proto c)) Qs Us) /\
  Forall2 (fun k D => is_mat (opdim (proto c) r m) k D) ks (map2 (datamat (proto c)) Qs Us).
Proof. intros Hr Hm. induction ks as [|k ks IH]; intros Qs Us [HQ HU].
  - inversion HQ; inversion HU; subst. split; auto. constructor.
  - inversion HQ as [|? Q ? Qs' HQ1 HQ2]; subst. inversion HU as [|? U ? Us' HU1 HU2]; subst.
    destruct (IH Qs' Us' (conj HQ2 HU2)) as [E1 E2]. cbn [i_blocks map2]. rewrite (datablock_ok r m k) by auto. cbn [bind].
    rewrite E1. cbn [bind]. split; auto. constructor; auto. apply datamat_shape; auto. Qed.

(* the data block is block diagonal: the product with [A_1 ... A_s] lists the products with each A_i *)
Lemma i_datablock_ok r m c mus ks Qs Us : 0 < r -> 0 < m -> mus <> [] -> length ks = length mus -> datashape r m ks Qs Us ->
  exists D, i_datablock c mus Qs Us = Ok D /\ is_mat (i_opdim c (length mus) r m) (lsumn ks) D /\
  forall r' As, blocks r' (map (fun _ => opdim (proto c) r m) mus) As ->
   matmul (hstack As) D = hstack (map2 matmul As (map2 (datamat (proto c)) Qs Us)).
Proof. intros Hr Hm Hne HL HD. destruct (i_blocks_ok r m c Hr Hm ks Qs Us HD) as [E1 E2].
  assert (EQ : i_blocks c Qs (if has_inputs c then Us else map (fun _ => []) mus) = Ok (map2 (datamat (proto c)) Qs Us)).
  { destruct (has_inputs c) eqn:Hi; auto. rewrite <- E1. destruct HD as [HQ HU]. apply Forall2_len in HQ. apply Forall2_len in HU.
    apply i_blocks_noinput; auto; rewrite ?map_length; lia. }
  unfold i_datablock. rewrite EQ. cbn [bind]. eexists. split; [reflexivity|].
  set (Ds := map2 (datamat (proto c)) Qs Us) in *. clearbody Ds. assert (Hd := op_dim_pos (proto c) r m Hr Hm). set (d := opdim (proto c) r m) in *.
  destruct ks as [|k ks]; [destruct mus; [congruence|discriminate]|]. destruct mus as [|mu mus]; [congruence|].
  inversion E2 as [|? D0 ? Ds' HD0 HDs]; subst. cbn [block_diag].
  assert (HF : Forall (lt 0) (map (fun _ : pval => d) mus)) by (apply Forall_forall; intros x Hx; apply in_map_iff in Hx; destruct Hx as [? [<- _]]; auto).
  assert (HC : Forall2 (fun nk D => is_mat (fst nk) (snd nk) D) (combine (map (fun _ : pval => d) mus) ks) Ds').
  { assert (HLk : length ks = length mus) by (cbn in HL; lia). clear - HDs HLk. revert mus HLk. induction HDs; intros [|mu mus] HLk; cbn; try discriminate; constructor; auto. }
  split.
  - assert (HB0 : blocks 1 (map (fun _ : pval => d) mus) (map (fun _ => mzeros 1 d) mus)).
    { clear. unfold blocks. induction mus; cbn; constructor; auto. apply is_mat_mzeros. }
    destruct (fold_blockdiag 1 _ HF ks _ Ds' HB0 ltac:(rewrite map_length; cbn in HL; lia) HC d k (mzeros 1 d) D0) as [_ K]; auto.
    { apply is_mat_mzeros. }
    rewrite lsumn_const in K. unfold i_opdim. fold d. cbn [length]. replace (S (length mus) * d) with (d + length mus * d) by lia. exact K.
  - intros r' As HA. cbn [map] in HA. inversion HA as [|? A0 ? As' HA1 HA2]; subst. cbn [map2 hstack].
    destruct (fold_blockdiag r' _ HF ks As' Ds' HA2 ltac:(rewrite map_length; cbn in HL; lia) HC d k A0 D0) as [K _]; auto. Qed.

(* the regression decouples: the residual is the sum of the residuals of the separate regressions *)
Lemma i_residual_splits r m c mus ks Qs Us Zs D As : 0 < r -> 0 < m -> mus <> [] -> length ks = length mus -> datashape r m ks Qs Us ->
  i_datablock c mus Qs Us = Ok D -> forall r', blocks r' ks Zs -> blocks r' (map (fun _ => opdim (proto c) r m) mus) As ->
  mnorm2 (msub (matmul (hstack As) D) (hstack Zs)) =
  lsum (map2 (fun AD Z => mnorm2 (msub AD Z)) (map2 matmul As (map2 (datamat (proto c)) Qs Us)) Zs).
Proof. intros Hr Hm Hne HL HD HDb r' HZ HA. destruct (i_datablock_ok r m c mus ks Qs Us Hr Hm Hne HL HD) as [D' [E1 [_ E3]]].
  rewrite HDb in E1. injection E1 as <-. rewrite (E3 r' As HA). destruct (i_blocks_ok r m c Hr Hm ks Qs Us HD) as [_ E2].
  set (Ds := map2 (datamat (proto c)) Qs Us) in *. clearbody Ds. assert (Hd := op_dim_pos (proto c) r m Hr Hm). set (d := opdim (proto c) r m) in *.
  assert (HB : blocks r' ks (map2 matmul As Ds)).
  { clear - E2 HA HL Hd. revert mus As HA HL. induction E2 as [|k D ks Ds HD E2 IH]; intros [|mu mus] As HA HL; try discriminate; cbn [map] in HA; inversion HA; subst; cbn; constructor.
    - mt.
    - eapply IH; eauto. }
  assert (HN : map2 matmul As Ds <> []). { intros K. rewrite K in HB. inversion HB; subst. destruct mus; [congruence|discriminate]. }
  set (Ps := map2 matmul As Ds) in *. clearbody Ps.
  rewrite (msub_hstack r' ks) by auto.
  assert (HS : blocks r' ks (map2 msub Ps Zs)).
  { clear - HB HZ. revert Zs HZ. induction HB; intros Zs HZ; inversion HZ; subst; cbn; constructor; [mt|apply IHHB; auto]. }
  rewrite (mnorm2_hstack r' ks); auto.
  - f_equal. clear. revert Zs. induction Ps; intros [|Z Zs]; cbn; auto. f_equal; auto.
  - intros K. rewrite K in HS. inversion HS; subst. inversion HB; subst. congruence. Qed.

(* ---- where the code departs ------------------------------------------------------------------------------- *)
(* set_entries a second time, training parameters not sorted: the remembered class is CubicSpline and is handed the
   unsorted parameters *)
Lemma i_set_raises cubic linearnd r m t ps ops C e : 0 < r -> family r m (i_cls t) ops -> i_params t = Some ps -> length ops = length ps ->
  i_iclass t = Some C -> C ps (map entries2 ops) = Err e ->
  i_set cubic linearnd t (map entries2 ops) = ({| i_cls := i_cls t; i_pdim := i_pdim t; i_params := i_params t; i_entries := Some ops;
      i_interp := i_interp t; i_iclass := i_iclass t |}, Err e).
Proof. intros Hr HF Hp HL Hi HC. unfold i_set. rewrite Hp, Hi. rewrite (family_shapes r m (i_cls t)) by auto.
  cbn [negb]. rewrite !map_length, HL, Nat.eqb_refl. cbn [negb]. rewrite (family_construct r m) by auto.
  unfold i_set_interp. cbn [i_entries i_params i_cls i_pdim i_iclass]. rewrite HC. reflexivity. Qed.

Lemma reset_stale cubic linearnd r m c xs ops ops' : 0 < r ->
  (forall xs, 2 <= length xs -> strictly_inc xs -> interpolates cubic (map PS xs) (PS 0)) ->
  (forall xs es, ~ strictly_inc xs -> cubic (map PS xs) es = Err ValueError) ->
  family r m c ops -> family r m c ops' -> NoDup xs -> 2 <= length xs -> ~ strictly_inc xs -> length ops = length xs -> length ops' = length xs ->
  exists t t', i_init cubic linearnd c (map PS xs) (map entries2 ops) None = Ok t /\
   i_set cubic linearnd t (map entries2 ops') = (t', Err ValueError) /\
   i_entries t' = Some ops' /\ (forall i, i < length xs -> i_evaluate t' (PS (vget xs i)) = Ok (nth i ops (OConst []))) /\
   i_copy cubic linearnd t = Err ValueError.
Proof. intros Hr Hc Hx HF HF' HN H2 HI HL HL'.
  destruct (i_init_default cubic linearnd Hc r m c xs ops Hr HF HN H2 HL) as [t [E1 [E2 [E3 [E4 [E5 [E6 E7]]]]]]].
  exists t. eexists. split; auto. split.
  - apply (i_set_raises cubic linearnd r m t (map PS xs) ops' cubic); auto.
    + rewrite E4; auto.
    + rewrite map_length; auto.
  - cbn. split; auto. split.
    + intros i Hi. specialize (E7 i Hi). unfold i_evaluate in *. rewrite E2 in E7. cbn [i_entries i_interp i_pdim i_cls]. exact E7.
    + unfold i_copy. rewrite E3, E2, E4, E5. unfold i_set_params. cbn [i_new i_interp].
      destruct xs as [|x0 xs0] eqn:EX; [cbn in H2; lia|]. cbn [map].
      change (PS x0 :: map PS xs0) with (map PS (x0 :: xs0)). cbn [pndim plen].
      replace (forallb _ (map PS (x0 :: xs0))) with true.
      2:{ symmetry. apply forallb_forall. intros p Hp. apply in_map_iff in Hp. destruct Hp as [y [<- _]]. reflexivity. }
      cbn [negb Nat.eqb bind]. rewrite map_map. cbn [unscalar].
      rewrite (i_set_raises cubic linearnd r m _ (map PS (x0 :: xs0)) ops cubic ValueError); auto.
      rewrite map_length. auto. Qed.

Lemma Forall2_nth {A B} (P : A -> B -> Prop) l l' da db : Forall2 P l l' -> forall i, i < length l -> P (nth i l da) (nth i l' db).
Proof. induction 1; intros i Hi; cbn in *; [lia|]. destruct i; auto. apply IHForall2. lia. Qed.

(* minimising a sum of independent terms *)
Lemma lsum_le {A} (f g : A -> R) l : (forall x, In x l -> (f x <= g x)%R) -> (lsum (map f l) <= lsum (map g l))%R.
Proof. induction l; cbn [map]; intros; [lra|]. rewrite !lsum_cons. assert (f a <= g a)%R by (apply H; left; auto).
  assert (lsum (map f l) <= lsum (map g l))%R by (apply IHl; intros; apply H; right; auto). lra. Qed.

Definition total2 (Ds : list mat) (Zs As : list mat) : R := lsum (map2 (fun AD Z => mnorm2 (msub AD Z)) (map2 matmul As Ds) Zs).
Lemma separate_min r d : forall Ds Zs As, length Ds = length Zs -> blocks r (map (fun _ => d) Ds) As ->
  ((forall Bs, blocks r (map (fun _ => d) Ds) Bs -> (total2 Ds Zs As <= total2 Ds Zs Bs)%R) <->
   (forall i, i < length Ds -> lsq_minimizer r d (nth i Ds []) (nth i Zs []) (nth i As []))).
Proof. unfold total2. induction Ds as [|D Ds IH]; intros [|Z Zs] As HL HA; cbn in HL; try discriminate.
  - split; [intros _ i Hi; cbn in Hi; lia|]. intros _ Bs HB. cbn in *. inversion HA; inversion HB; subst. lra.
  - cbn [map] in HA. destruct As as [|A As]; [inversion HA|]. apply blocks_cons in HA. destruct HA as [HA HAs].
    assert (HL' : length Ds = length Zs) by lia. specialize (IH Zs As HL' HAs). destruct IH as [IH1 IH2]. split.
    + intros H. assert (H0 : lsq_minimizer r d D Z A).
      { split; auto. intros B HB. specialize (H (B :: As)). cbn [map map2] in H. rewrite !lsum_cons in H.
        specialize (H ltac:(apply blocks_cons; auto)). lra. }
      intros [|i] Hi; cbn [nth]; auto. apply IH1; [|cbn in Hi; lia]. intros Bs HB. specialize (H (A :: Bs)). cbn [map map2] in H.
      rewrite !lsum_cons in H. specialize (H ltac:(apply blocks_cons; auto)). lra.
    + intros H Bs HB. destruct Bs as [|B Bs]; [inversion HB|]. cbn [map] in HB. apply blocks_cons in HB. destruct HB as [HB HBs].
      cbn [map2]. rewrite !lsum_cons. destruct (H 0 ltac:(cbn; lia)) as [_ H0]. cbn [nth] in H0. specialize (H0 B HB).
      assert (K := IH2 ltac:(intros i Hi; apply (H (S i)); cbn; lia) Bs HBs). lra. Qed.

(* the least-squares problem of several training parameters is solved exactly by solving the separate ones *)
Lemma i_regression_decouples r m c mus ks Qs Us Zs D : 0 < r -> 0 < m -> mus <> [] -> length ks = length mus -> datashape r m ks Qs Us ->
  i_datablock c mus Qs Us = Ok D -> forall r' As, blocks r' ks Zs -> blocks r' (map (fun _ => opdim (proto c) r m) mus) As ->
  ((forall Bs, blocks r' (map (fun _ => opdim (proto c) r m) mus) Bs ->
     (mnorm2 (msub (matmul (hstack As) D) (hstack Zs)) <= mnorm2 (msub (matmul (hstack Bs) D) (hstack Zs)))%R) <->
   (forall i, i < length mus -> exists Di, datablock (proto c) (M (nth i Qs [])) (M (nth i Us [])) = Ok Di /\
      lsq_minimizer r' (opdim (proto c) r m) Di (nth i Zs []) (nth i As []))).
Proof. intros Hr Hm Hne HL HD HDb r' As HZ HA.
  destruct (i_blocks_ok r m c Hr Hm ks Qs Us HD) as [_ E2]. set (d := opdim (proto c) r m) in *.
  assert (HLD := Forall2_len _ _ _ E2). assert (HLZ := Forall2_len _ _ _ HZ).
  set (Ds := map2 (datamat (proto c)) Qs Us) in *.
  assert (EM : map (fun _ : pval => d) mus = map (fun _ : mat => d) Ds).
  { assert (length mus = length Ds) by lia. clear - H. clearbody Ds. revert Ds H. induction mus; intros [|D Ds] H; cbn in *; try discriminate; auto. f_equal; auto. }
  assert (HS := separate_min r' d Ds Zs As ltac:(lia)). rewrite <- EM in HS. specialize (HS HA). destruct HS as [S1 S2].
  assert (HDi : forall i, i < length mus -> datablock (proto c) (M (nth i Qs [])) (M (nth i Us [])) = Ok (nth i Ds [])).
  { intros i Hi. destruct HD as [HQ HU]. assert (LQ := Forall2_len _ _ _ HQ). assert (LU := Forall2_len _ _ _ HU).
    assert (HQi : is_mat r (nth i ks 0) (nth i Qs [])) by (apply (Forall2_nth _ _ _ 0 [] HQ); lia).
    assert (HUi : is_mat m (nth i ks 0) (nth i Us [])) by (apply (Forall2_nth _ _ _ 0 [] HU); lia).
    rewrite (datablock_ok r m (nth i ks 0)) by auto. f_equal. unfold Ds.
    clear - LQ LU HL Hi. assert (i < length Qs) by lia. assert (length Qs = length Us) by lia. clear - H H0.
    revert Us i H H0. induction Qs; intros [|U Us] i H H0; cbn in *; try lia. destruct i; auto. apply IHQs; lia. }
  split.
  - intros H i Hi. exists (nth i Ds []). split; auto. apply S1; [|lia]. intros Bs HB. specialize (H Bs HB).
    rewrite !(i_residual_splits r m c mus ks Qs Us Zs D _ Hr Hm Hne HL HD HDb r') in H by auto. exact H.
  - intros H Bs HB. rewrite !(i_residual_splits r m c mus ks Qs Us Zs D _ Hr Hm Hne HL HD HDb r') by auto.
    apply S2; auto. intros i Hi. destruct (H i ltac:(lia)) as [Di [E1 E3]]. rewrite HDi in E1 by lia. injection E1 as <-. exact E3. Qed.

(* the data block, with the separate blocks named *)
Lemma i_datablock_diag r m c mus ks Qs Us : 0 < r -> 0 < m -> mus <> [] -> length ks = length mus -> datashape r m ks Qs Us ->
  exists D Ds, i_datablock c mus Qs Us = Ok D /\ is_mat (i_opdim c (length mus) r m) (lsumn ks) D /\
  length Ds = length mus /\
  (forall i, i < length mus -> datablock (proto c) (M (nth i Qs [])) (M (nth i Us [])) = Ok (nth i Ds [])) /\
  forall r' As, blocks r' (map (fun _ => opdim (proto c) r m) mus) As ->
   matmul (hstack As) D = hstack (map2 matmul As Ds).
Proof. intros Hr Hm Hne HL HD. destruct (i_datablock_ok r m c mus ks Qs Us Hr Hm Hne HL HD) as [D [E1 [E2 E3]]].
  exists D, (map2 (datamat (proto c)) Qs Us). repeat split; auto; try apply E2.
  - destruct HD as [HQ HU]. assert (LQ := Forall2_len _ _ _ HQ). assert (LU := Forall2_len _ _ _ HU). rewrite map2_length. lia.
  - intros i Hi. destruct HD as [HQ HU]. assert (LQ := Forall2_len _ _ _ HQ). assert (LU := Forall2_len _ _ _ HU).
    assert (HQi : is_mat r (nth i ks 0) (nth i Qs [])) by (apply (Forall2_nth _ _ _ 0 [] HQ); lia).
    assert (HUi : is_mat m (nth i ks 0) (nth i Us [])) by (apply (Forall2_nth _ _ _ 0 [] HU); lia).
    rewrite (datablock_ok r m (nth i ks 0)) by auto. f_equal.
    clear - LQ LU HL Hi. assert (i < length Qs) by lia. assert (length Qs = length Us) by lia. clear - H H0.
    revert Us i H H0. induction Qs; intros [|U Us] i H H0; cbn in *; try lia. destruct i; auto. apply IHQs; lia. Qed.

(* an interpolator with the properties assumed of CubicSpline: look the parameter up *)
Definition lookup_interp (xs : vec) (es : list mat) (p : pval) : res mat :=
  match p with
  | PS x => match find (fun k => if Req_EM_T (vget xs k) x then true else false) (seq 0 (length xs)) with
            | Some k => Ok (nth k es []) | None => Err OtherError end
  | PV _ => Err OtherError
  end.
Lemma strictly_inc_dec xs : {strictly_inc xs} + {~ strictly_inc xs}.
Proof. destruct (forallb (fun i => forallb (fun j => if i <? j then (if Rlt_dec (vget xs i) (vget xs j) then true else false) else true) (seq 0 (length xs))) (seq 0 (length xs))) eqn:E.
  - left. intros i j Hij Hj. rewrite forallb_forall in E. specialize (E i ltac:(apply in_seq; lia)). rewrite forallb_forall in E.
    specialize (E j ltac:(apply in_seq; lia)). apply Nat.ltb_lt in Hij. rewrite Hij in E. destruct (Rlt_dec _ _); auto; discriminate.
  - right. intros K. assert (T : forallb (fun i => forallb (fun j => if i <? j then (if Rlt_dec (vget xs i) (vget xs j) then true else false) else true) (seq 0 (length xs))) (seq 0 (length xs)) = true); [|congruence].
    apply forallb_forall. intros i Hi. apply forallb_forall. intros j Hj. apply in_seq in Hi, Hj. destruct (Nat.ltb_spec i j); auto.
    destruct (Rlt_dec _ _) as [|n]; auto. exfalso. apply n. apply K; lia. Qed.
Definition toy (ps : list pval) (es : list mat) : res interpolator :=
  if strictly_inc_dec (map unscalar ps) then Ok (lookup_interp (map unscalar ps) es) else Err ValueError.
Lemma toy_cubic : exists cubic : iclass,
  (forall xs, 2 <= length xs -> strictly_inc xs -> interpolates cubic (map PS xs) (PS 0)) /\
  (forall xs es, ~ strictly_inc xs -> cubic (map PS xs) es = Err ValueError) /\
  NoDup [1; 0]%R /\ ~ strictly_inc [1; 0]%R /\ family 1 1 CLin [OLin [[1%R]]; OLin [[2%R]]].
Proof. exists toy. assert (HU : forall xs, map unscalar (map PS xs) = xs) by (intros xs; rewrite map_map; apply map_id).
  split; [|split; [|split; [|split]]].
  - intros xs H2 HI es HL. unfold toy. rewrite HU. destruct (strictly_inc_dec xs); [|contradiction]. eexists. split; [reflexivity|].
    rewrite map_length. intros i Hi. unfold lookup_interp. rewrite map_nth. cbn.
    destruct (find _ _) as [k|] eqn:E.
    + apply find_some in E. destruct E as [E1 E2]. apply in_seq in E1. destruct (Req_EM_T _ _) as [E3|]; [|discriminate].
      f_equal. f_equal. unfold vget in E3. destruct (Nat.lt_trichotomy i k) as [Hlt|[->|Hlt]]; auto.
      * specialize (HI i k Hlt ltac:(lia)). unfold vget in HI. lra.
      * specialize (HI k i Hlt ltac:(lia)). unfold vget in HI. lra.
    + exfalso. assert (K := find_none _ _ E i ltac:(apply in_seq; lia)). cbn in K. unfold vget in K. destruct (Req_EM_T _ _); [discriminate|congruence].
  - intros xs es HI. unfold toy. rewrite HU. destruct (strictly_inc_dec xs); [contradiction|reflexivity].
  - constructor; [intros [K|[]]; lra|]. constructor; [intros []|constructor].
  - intros K. specialize (K 0 1 ltac:(lia) ltac:(cbn; lia)). cbn in K. lra.
  - repeat constructor. Qed.

(* ParaVals.v -- parametric models: evaluated operators and data blocks. *)
From Coq Require Import ZArith Permutation.
From Verif Require Import LinAlg MatAlg OpsProofs BlockAlg SolverReg SolverCond AffProofs InterpProofs.
From Verif Require Export MonoPredict SpecPara.
#[local] Open Scope nat_scope.

Lemma family_noinput r m m' c ops : has_inputs c = false -> family r m c ops -> family r m' c ops.
Proof. intros Hc HF. unfold family in *. eapply Forall_impl; [|exact HF]. intros o [Hw Ho]. split; auto. apply (wf_noinput r m); auto. rewrite Ho; auto. Qed.
Lemma psized_noinput r m m' o : ptakes o = false -> psized r m o -> psized r m' o.
Proof. intros Ht. destruct o as [o|a|t]; unfold ptakes in Ht; cbn in *.
  - intros (e & E & Hc & Hw). exists e. split; auto. split; auto. apply (wf_noinput r m); auto. rewrite Hc; auto.
  - intros (ops & E & HF & HL & Hn). exists ops. split; auto. split; auto. apply (family_noinput r m); auto.
  - intros (ops & f & E & Hne & HF & Hi & Hs). exists ops, f. split; auto. split; auto. split; [apply (family_noinput r m); auto|]. split; auto.
    intros p E0 H0. rewrite <- opdim_width, <- (opdim_noinput _ r m m' Ht), opdim_width. eauto. Qed.
Lemma version_noinput r m m' mus o0 o : ptakes o0 = false -> version r m mus o0 o -> version r m' mus o0 o.
Proof. intros Ht. destruct o0 as [o0|a0|t0], o as [o|a|t]; cbn [version]; try tauto.
  - intros [E H]. split; auto. apply (psized_noinput r m); auto. unfold ptakes in *; cbn in *. congruence.
  - intros (E1 & E2 & E3 & E4 & H). repeat (split; [assumption|]). apply (psized_noinput r m); auto. unfold ptakes in *; cbn in *. congruence.
  - intros (E & ops & H1 & H2 & H3 & H4). split; auto. exists ops. split; auto. split; auto. apply (family_noinput r m); auto. unfold ptakes in Ht; cbn in Ht. congruence. Qed.
Lemma version_cls r m mus o0 o : version r m mus o0 o -> pcls o = pcls o0.
Proof. destruct o0, o; cbn; tauto. Qed.

(* ---- evaluation --------------------------------------------------------------------------------------------------------- *)
Definition eok (o : pop) (mu : pval) : Prop := forall a, o = PAff a -> exists th, thetas a mu = Ok th /\ length th = a_nterms a.
Lemma eval_ok r m o mu e : 0 < r -> psized r m o -> eok o mu -> snd (pop_eval o mu) = Ok e -> sized r m e /\ mo_cls e = pcls o.
Proof. intros Hr HS He E. destruct o as [o|a|t]; cbn [pop_eval snd] in E.
  - injection E as <-. split; auto.
  - destruct HS as (ops & HA). destruct (He a eq_refl) as (th & Ht & HL).
    destruct (aff_evaluate a mu) as [a' x] eqn:Ea. cbn in E. destruct x as [x|x]; [|discriminate]. cbn in E. injection E as <-.
    assert (Hp : match a_pdim a with Some p => plen mu = p | None => True end).
    { unfold aff_evaluate in Ea. destruct HA as (H1 & _). rewrite H1 in Ea. destruct (a_pdim a) as [p|]; auto. injection Ea as _ Ea.
      destruct (Nat.eqb_spec (plen mu) p); auto. discriminate. }
    destruct (evaluate_ok r m a ops mu th Hr HA Hp Ht HL) as (o & E1 & E2 & E3 & _). rewrite Ea in E1. cbn in E1. injection E1 as <-.
    split; auto. exists x. auto.
  - destruct HS as (ops & f & E1 & E2 & E3 & E4 & E5). unfold i_evaluate in E. rewrite E1, E4 in E.
    destruct (i_pdim t) as [p|]; [|discriminate]. destruct (negb (plen mu =? p)); [discriminate|].
    destruct (f (if p =? 1 then PS (unscalar mu) else mu)) as [E0|] eqn:Ef; [|discriminate]. cbn [bind] in E.
    assert (HE := E5 _ _ Ef). rewrite <- opdim_width in HE. destruct (construct_ok (i_cls t) r m E0 Hr HE) as (o & F1 & F2 & F3 & F4).
    rewrite F1 in E. cbn in E. injection E as <-. split; auto. exists o. auto. Qed.

Lemma eval_acts r m o mu e q v ou : 0 < r -> 0 < m -> psized r m o -> eok o mu -> snd (pop_eval o mu) = Ok e -> is_vec r q -> is_vec m v ->
  (ptakes o = true -> ou = Some (V v)) -> exists y, op_apply e (V q) ou = Ok (V y) /\ is_vec r y /\ acts r mu q ou o y.
Proof. intros Hr Hm HS He E Hq Hv Hin. destruct (eval_ok r m o mu e Hr HS He E) as (HSe & Hc).
  assert (Hin2 : takes_input e = true -> ou = Some (V v)). { unfold takes_input. rewrite Hc. exact Hin. }
  destruct (op_apply_vec r m e q v ou Hr Hm HSe Hq Hv Hin2) as (y & Ey & Hy & Hval). exists y. split; auto. split; auto.
  destruct o as [o|a|t]; cbn [pop_eval snd] in E.
  - injection E as <-. exact Ey.
  - destruct HS as (ops & HA). destruct (He a eq_refl) as (th & Ht & HL).
    destruct (aff_evaluate a mu) as [a' x] eqn:Ea. cbn in E. destruct x as [x|x]; [|discriminate]. cbn in E. injection E as <-.
    assert (Hp : match a_pdim a with Some p => plen mu = p | None => True end).
    { unfold aff_evaluate in Ea. destruct HA as (H1 & _). rewrite H1 in Ea. destruct (a_pdim a) as [p|]; auto. injection Ea as _ Ea.
      destruct (Nat.eqb_spec (plen mu) p); auto. discriminate. }
    destruct (evaluate_ok r m a ops mu th Hr HA Hp Ht HL) as (o & E1 & E2 & E3 & E4). rewrite Ea in E1. cbn in E1. injection E1 as <-.
    assert (HA' := HA). destruct HA' as (H1 & HF & HLo & Hn).
    exists ops, th, (map (fun e => matvec (entries2 e) (datavec e q v)) ops). rewrite map_length.
    split; auto. split; auto. split; [lia|]. split; [lia|]. split; [|split; auto].
    + assert (G : forall l, Forall (fun o => wf_op r m o /\ cls_of o = a_cls a) l ->
        Forall2 (fun e z => op_apply {| mo_cls := a_cls a; mo_ent := Some e |} (V q) ou = Ok (V z)) l (map (fun e => matvec (entries2 e) (datavec e q v)) l)).
      { intros l HFl. induction HFl as [|e l (Hw & Hce) HFl IH]; cbn [map]; constructor; auto.
        destruct (op_apply_vec r m {| mo_cls := a_cls a; mo_ent := Some e |} q v ou Hr Hm) as (y1 & Ey1 & Hy1 & Hv1); auto.
        { exists e. auto. }
        assert (Es : y1 = matvec (entries2 e) (datavec e q v)).
        { apply (vec_ext r); auto. { apply (is_vec_matvec r (opdim e r m)), entries2_shape; auto. } intros i Hi. rewrite Hv1. reflexivity. }
        rewrite <- Es. exact Ey1. }
      apply G. exact HF.
    + intros i Hi. rewrite Hval. unfold opval. cbn [mo_ent].
      assert (HDV : is_vec (opdim (proto (a_cls a)) r m) (datavec x q v)). { rewrite <- E3, opdim_proto. apply is_vec_datavec; auto. }
      assert (HX : is_mat r (opdim (proto (a_cls a)) r m) (entries2 x)). { rewrite <- E3, opdim_proto. apply entries2_shape; auto. }
      rewrite (vget_matvec r (opdim (proto (a_cls a)) r m)) by auto.
      rewrite (bsum_ext _ _ (fun c => bsum (length th) (fun k => (vget th k * (mget (entries2 (nth k ops (OConst []))) i c * vget (datavec x q v) c))%R))).
      2:{ intros c Hc'. rewrite E4, HL, <- bsum_scal_r. apply bsum_ext. intros; ring. }
      rewrite bsum_swap. apply bsum_ext. intros k Hk. rewrite bsum_scal_l. f_equal.
      change (@nil R) with ((fun e => matvec (entries2 e) (datavec e q v)) (OConst [])). rewrite map_nth.
      unfold family in HF. rewrite Forall_forall in HF. destruct (HF (nth k ops (OConst []))) as (Hw & Hck); [apply nth_In; lia|].
      rewrite (vget_matvec r (opdim (proto (a_cls a)) r m)).
      * apply bsum_ext. intros c Hc'. rewrite (datavec_cls (nth k ops (OConst [])) x) by congruence. reflexivity.
      * rewrite <- Hck, opdim_proto. apply entries2_shape; auto.
      * rewrite <- Hck, opdim_proto. apply is_vec_datavec; auto.
  - destruct HS as (ops & f & E1 & E2 & E3 & E4 & E5). unfold i_evaluate in E. rewrite E1, E4 in E.
    destruct (i_pdim t) as [p|]; [|discriminate]. destruct (Nat.eqb_spec (plen mu) p) as [Ep|]; [|discriminate]. cbn [negb] in E. subst p.
    destruct (f (if plen mu =? 1 then PS (unscalar mu) else mu)) as [E0|] eqn:Ef; [|discriminate]. cbn [bind] in E.
    destruct (construct (i_cls t) E0) as [e0|] eqn:Ec; [|discriminate]. cbn in E. injection E as <-.
    exists f, E0, e0. auto. Qed.

Lemma eval_total_aff r m a mu : 0 < r -> psized r m (PAff a) -> eok (PAff a) mu -> match a_pdim a with Some p => plen mu = p | None => True end ->
  exists e, snd (pop_eval (PAff a) mu) = Ok e.
Proof. intros Hr (ops & HA) He Hp. destruct (He a eq_refl) as (th & Ht & HL).
  destruct (evaluate_ok r m a ops mu th Hr HA Hp Ht HL) as (o & E1 & _). cbn [pop_eval]. destruct (aff_evaluate a mu) as [a' x]. cbn in *. rewrite E1. cbn. eauto. Qed.

(* ---- data blocks --------------------------------------------------------------------------------------------------------- *)
Definition pw (r m s : nat) (o : pop) : nat :=
  match o with PMono o => opdim (proto (mo_cls o)) r m | PAff a => aff_opdim a r m | PItp t => i_opdim (i_cls t) s r m end.
Lemma version_pw r m mus o0 o r' m' s : version r m mus o0 o -> pw r' m' s o = pw r' m' s o0.
Proof. destruct o0 as [o0|a0|t0], o as [o|a|t]; cbn [version pw]; try tauto.
  - intros [-> _]. auto.
  - intros (H1 & H2 & H3 & _). unfold aff_opdim. rewrite H1, H3. auto.
  - intros (-> & _). auto. Qed.

Lemma colv_datamat_dot r m k e Q U i j : 0 < r -> 0 < m -> is_mat r k Q -> is_mat m k U -> wf_op r m e -> i < r -> j < k ->
  bsum (opdim e r m) (fun c => (mget (entries2 e) i c * mget (datamat (proto (cls_of e)) Q U) c j)%R) = vget (matvec (entries2 e) (datavec e (colv r Q j) (colv m U j))) i.
Proof. intros Hr Hm HQ HU Hw Hi Hj. assert (HV := is_vec_datavec r m e (colv r Q j) (colv m U j) Hw (is_vec_colv r Q j) (is_vec_colv m U j)).
  rewrite (vget_matvec r (opdim e r m)) by (auto; apply entries2_shape; auto). apply bsum_ext. intros c Hc. f_equal.
  rewrite <- (datavec_cls (proto (cls_of e)) e) by (rewrite cls_proto; auto). rewrite <- (datamat_col r m k) by auto.
  rewrite opdim_proto, vget_colv by auto. reflexivity. Qed.

Lemma mono_blocks_ok r m o : 0 < r -> 0 < m -> forall ks Qs Us oUs, datashape r m ks Qs Us -> length oUs = length Qs ->
  (takes_input o = true -> oUs = map (fun U => Some (M U)) Us) ->
  mono_blocks o Qs oUs = Ok (map2 (datamat (proto (mo_cls o))) Qs Us) /\
  blocks (opdim (proto (mo_cls o)) r m) ks (map2 (datamat (proto (mo_cls o))) Qs Us).
Proof. intros Hr Hm. induction ks as [|k ks IH]; intros Qs Us oUs [HQ HU] HL Hin.
  - inversion HQ; inversion HU; subst. split; [reflexivity|constructor].
  - inversion HQ as [|? Q ? Qs' HQ1 HQ2]; subst. inversion HU as [|? U ? Us' HU1 HU2]; subst. destruct oUs as [|oU oUs]; [discriminate|].
    destruct (IH Qs' Us' oUs) as [E HB]; [split; auto|cbn in HL; lia| |].
    { intros Ht. specialize (Hin Ht). injection Hin as _ Hin. exact Hin. }
    cbn [mono_blocks map2]. assert (E1 : op_datablock o Q oU = Ok (datamat (proto (mo_cls o)) Q U)).
    { rewrite <- (datablock_ok r m k) by auto. unfold op_datablock. destruct (takes_input o) eqn:ET.
      - specialize (Hin eq_refl). injection Hin as -> _. reflexivity.
      - destruct oU; apply datablock_noinput; auto. }
    rewrite E1. cbn [bind]. rewrite E. cbn [bind]. split; auto. constructor; auto. apply datamat_shape; auto. Qed.

Lemma map2_len {A B C} (f : A -> B -> C) l l' : length l = length l' -> length (map2 f l l') = length l.
Proof. revert l'. induction l as [|a l IH]; intros [|b l'] H; cbn in *; try lia. rewrite IH; lia. Qed.
Lemma nth_error_map2 {A B C} (f : A -> B -> C) l : forall l' i a b, nth_error l i = Some a -> nth_error l' i = Some b -> nth_error (map2 f l l') i = Some (f a b).
Proof. induction l as [|x l IH]; intros [|y l'] [|i] a b H1 H2; cbn in *; try discriminate; auto. congruence. Qed.
Lemma Forall2_nth_error {A B} (P : A -> B -> Prop) l l' i a : Forall2 P l l' -> nth_error l i = Some a -> exists b, nth_error l' i = Some b /\ P a b.
Proof. intros H. revert i. induction H as [|x y l l' HP H IH]; intros [|i] E; cbn in *; try discriminate; eauto. injection E as <-. eauto. Qed.
Lemma nth_error_lt {A} (l : list A) i : i < length l -> exists a, nth_error l i = Some a.
Proof. intros H. destruct (nth_error l i) eqn:E; eauto. apply nth_error_None in E. lia. Qed.
Lemma nth_of_error {A} (l : list A) i a d : nth_error l i = Some a -> nth i l d = a.
Proof. revert i. induction l as [|x l IH]; intros [|i] E; cbn in *; try discriminate; auto. congruence. Qed.

Lemma offset_lt ks b j : b < length ks -> j < nth b ks 0 -> lsumn (firstn b ks) + j < lsumn ks.
Proof. revert b. induction ks as [|k ks IH]; intros [|b] Hb Hj; cbn [length firstn nth] in *; try lia.
  - change (lsumn (k :: ks)) with (k + lsumn ks). cbn. lia.
  - change (lsumn (k :: ks)) with (k + lsumn ks). change (lsumn (k :: firstn b ks)) with (k + lsumn (firstn b ks)). specialize (IH b). lia. Qed.

Definition blockspec (r m : nat) (mus : list pval) (ks : list nat) (Qs Us : list mat) (o0 : pop) (B : mat) : Prop :=
  is_mat (pw r m (length mus) o0) (lsumn ks) B /\
  forall o, version r m mus o0 o -> is_mat r (pw r m (length mus) o0) (opblock o) /\
    forall b, b < length mus -> exists e, snd (pop_eval o (nth b mus (PS 0))) = Ok e /\ sized r m e /\ mo_cls e = pcls o0 /\
      forall i j, i < r -> j < nth b ks 0 ->
        bsum (pw r m (length mus) o0) (fun c => (mget (opblock o) i c * mget B c (lsumn (firstn b ks) + j))%R) =
        opval (colv r (nth b Qs []) j) (colv m (nth b Us []) j) i e.
Definition ready (mus : list pval) (o : pop) : Prop :=
  match o with PAff a => 0 < a_nterms a /\ Forall (good_param a) mus | _ => True end.

Lemma aff_datablock_ext a a' mus Qs Us : a_cls a = a_cls a' -> a_theta a = a_theta a' -> a_nterms a = a_nterms a' -> aff_datablock a mus Qs Us = aff_datablock a' mus Qs Us.
Proof. intros H1 H2 H3. unfold aff_datablock. rewrite H1. f_equal. set (V := if has_inputs (a_cls a') then Us else map (fun _ => []) mus). clearbody V. revert Qs V.
  induction mus as [|mu mus IH]; intros Qs V; [reflexivity|]. destruct Qs as [|Q Qs], V as [|U V]; try reflexivity. cbn [aff_columns]. rewrite H1, IH.
  unfold thetas. rewrite H2, H3. reflexivity. Qed.

Lemma zero_family r m c n : 0 < r -> exists ops, family r m c ops /\ length ops = n.
Proof. intros Hr. destruct (construct_ok c r m (mzeros r (opdim (proto c) r m)) Hr (is_mat_mzeros _ _)) as (o & _ & H2 & H3 & _).
  exists (repeat o n). split; [|apply repeat_length]. unfold family. apply Forall_forall. intros x Hx. apply repeat_spec in Hx. subst. auto. Qed.

Lemma pop_block r m mus ks Qs Us oUs o0 : 0 < r -> 0 < m -> mus <> [] -> length ks = length mus -> datashape r m ks Qs Us -> ready mus o0 ->
  length oUs = length mus -> (ptakes o0 = true -> oUs = map (fun U => Some (M U)) Us) ->
  exists B, pop_datablock o0 mus Qs oUs = Ok B /\ blockspec r m mus ks Qs Us o0 B.
Proof. intros Hr Hm Hne HL HD HR HLo Hin. assert (HD' := HD). destruct HD' as [HQ HU].
  assert (LQ := Forall2_len _ _ _ HQ). assert (LU := Forall2_len _ _ _ HU).
  assert (DQ : forall b, b < length mus -> is_mat r (nth b ks 0) (nth b Qs []) /\ is_mat m (nth b ks 0) (nth b Us [])).
  { intros b Hb. split; [apply (Forall2_nth (fun k Q => is_mat r k Q)); auto; lia|apply (Forall2_nth (fun k Q => is_mat m k Q)); auto; lia]. }
  assert (EU : ptakes o0 = true -> map uarr oUs = Us).
  { intros Ht. rewrite (Hin Ht), map_map. cbn. rewrite <- (map_id Us) at 2. apply map_ext. reflexivity. }
  destruct o0 as [o0|a0|t0]; cbn [pop_datablock].
  - (* non-parametric *)
    destruct (mono_blocks_ok r m o0 Hr Hm ks Qs Us oUs HD) as [E HB]; [lia|exact Hin|]. rewrite E. cbn [bind].
    set (Ds := map2 (datamat (proto (mo_cls o0))) Qs Us) in *. assert (LD : length Ds = length mus). { unfold Ds. rewrite map2_len; lia. }
    assert (HDne : Ds <> []) by (intros K; rewrite K in LD; destruct mus; [congruence|discriminate]).
    exists (hstack Ds). split. { destruct Ds; [congruence|reflexivity]. }
    assert (Hd := op_dim_pos (proto (mo_cls o0)) r m Hr Hm).
    split; [apply is_mat_hstack; auto|]. intros o Ho. destruct o as [o|?|?]; cbn [version] in Ho; try tauto. destruct Ho as [Ec (e & Ee & Hc & Hw)].
    assert (EO : opblock (PMono o) = entries2 e). { unfold opblock; cbn. rewrite Ee. reflexivity. }
    assert (HE : is_mat r (opdim (proto (mo_cls o0)) r m) (entries2 e)). { rewrite <- Ec, <- Hc, opdim_proto. apply entries2_shape; auto. }
    rewrite EO. cbn [pw]. split; auto. intros b Hb. exists o. split; [reflexivity|]. split; [exists e; auto|]. split; [exact Ec|].
    intros i j Hi Hj. destruct (DQ b Hb) as [HQb HUb]. unfold opval. rewrite Ee.
    rewrite <- (colv_datamat_dot r m (nth b ks 0)) by auto. rewrite Hc, Ec.
    replace (opdim e r m) with (opdim (proto (mo_cls o0)) r m) by (rewrite <- Ec, <- Hc; apply opdim_proto).
    apply bsum_ext. intros c Hcc. f_equal.
    apply (hstack_get (opdim (proto (mo_cls o0)) r m) ks Ds Hd HB b _ (nth b ks 0)); auto.
    + destruct (nth_error_lt Qs b) as [Qb EQ]; [lia|]. destruct (nth_error_lt Us b) as [Ub EUb]; [lia|].
      rewrite (nth_of_error _ _ _ [] EQ), (nth_of_error _ _ _ [] EUb). unfold Ds. apply nth_error_map2; auto.
    + apply nth_error_nth'. lia.
  - (* affine *)
    destruct HR as [Hn HG].
    set (Us' := if has_inputs (a_cls a0) then Us else map (fun k => mzeros m k) ks).
    assert (EB : aff_datablock a0 mus Qs (map uarr oUs) = aff_datablock a0 mus Qs Us).
    { unfold aff_datablock. destruct (has_inputs (a_cls a0)) eqn:Hi; [|reflexivity]. rewrite EU by (unfold ptakes; cbn; auto). reflexivity. }
    rewrite EB. clear EB Us'.
    destruct (zero_family r m (a_cls a0) (a_nterms a0) Hr) as (z & Hz & Lz).
    set (az := {| a_cls := a_cls a0; a_theta := a_theta a0; a_nterms := a_nterms a0; a_pdim := a_pdim a0; a_entries := Some z |}).
    destruct (aff_datablock_ok r m az z mus ks Qs Us Hr Hm) as (B & Ys & E1 & E2 & _); auto. { split; [reflexivity|]. auto. }
    exists B. split. { rewrite <- E1. apply aff_datablock_ext; reflexivity. }
    split; [exact E2|]. intros o Ho. destruct o as [?|a|?]; cbn [version] in Ho; try tauto. destruct Ho as (C1 & C2 & C3 & C4 & (ops & HA)).
    assert (EO : opblock (PAff a) = hstack (map entries2 ops)). { unfold opblock; cbn. rewrite (proj1 HA). reflexivity. }
    assert (HA' := HA). destruct HA' as (F1 & F2 & F3 & F4).
    assert (One : map entries2 ops <> []). { destruct ops; cbn in *; [lia|congruence]. }
    assert (HE : is_mat r (pw r m (length mus) (PAff a0)) (hstack (map entries2 ops))).
    { cbn [pw]. unfold aff_opdim. rewrite <- C3, <- C1, <- F3, <- lsumn_const. apply is_mat_hstack; auto. apply family_blocks. exact F2. }
    rewrite EO. split; [exact HE|]. intros b Hb.
    destruct (aff_datablock_ok r m a ops mus ks Qs Us Hr Hm HA Hne HL HD) as (B' & Ys' & G1 & G2 & G3 & G4 & G5).
    { eapply Forall_impl; [|exact HG]. intros mu [H1 (th & H2 & H3)]. split; [rewrite C4; auto|]. exists th. unfold thetas in *. rewrite C2, C3. auto. }
    assert (EBB : B' = B). { rewrite (aff_datablock_ext a az) in G1 by auto. congruence. } subst B'.
    destruct (G5 b Hb) as (e & Ev & Ea). exists {| mo_cls := a_cls a; mo_ent := Some e |}.
    assert (Hgp : good_param a (nth b mus (PS 0))).
    { rewrite Forall_forall in HG. destruct (HG (nth b mus (PS 0))) as [H1 (th & H2 & H3)]; [apply nth_In; auto|].
      split; [rewrite C4; auto|]. exists th. unfold thetas in *. rewrite C2, C3. auto. }
    destruct Hgp as [Hp (th & Ht & HLt)]. destruct (evaluate_ok r m a ops _ th Hr HA Hp Ht HLt) as (e' & Ev' & Hw & Hce & _).
    rewrite Ev in Ev'. injection Ev' as <-.
    split. { cbn [pop_eval]. destruct (aff_evaluate a (nth b mus (PS 0))) as [a' x]. cbn in Ev |- *. rewrite Ev. reflexivity. }
    assert (HS : sized r m {| mo_cls := a_cls a; mo_ent := Some e |}) by (exists e; auto). split; [exact HS|]. split; [exact C1|].
    intros i j Hi Hj. destruct (DQ b Hb) as [HQb HUb].
    destruct (op_apply_mat r m (nth b ks 0) {| mo_cls := a_cls a; mo_ent := Some e |} (nth b Qs []) (nth b Us []) (Some (M (nth b Us []))) Hr Hm HS HQb HUb) as (Y & EY & HY & HV); auto.
    rewrite <- HV by auto. unfold op_apply in EY. cbn [mo_ent] in EY. rewrite Ea in EY. injection EY as EY.
    assert (Hk : lsumn (firstn b ks) + j < lsumn ks).
    { apply offset_lt; auto; lia. }
    assert (Hd0 : 0 < pw r m (length mus) (PAff a0)). { cbn [pw]. unfold aff_opdim. assert (H0 := op_dim_pos (proto (a_cls a0)) r m Hr Hm). nia. }
    rewrite <- (mget_matmul r (pw r m (length mus) (PAff a0)) (lsumn ks)) by auto. rewrite G4.
    rewrite (hstack_get r ks Ys' Hr G3 b (nth b Ys' []) (nth b ks 0)); auto.
    + rewrite EY. reflexivity.
    + apply nth_error_nth'. apply Forall2_len in G3. lia.
    + apply nth_error_nth'. lia.
  - (* interpolated *)
    destruct (i_datablock_diag r m (i_cls t0) mus ks Qs Us Hr Hm Hne HL HD) as (B & Ds & E1 & E2 & E3 & E4 & E5).
    assert (EB : i_datablock (i_cls t0) mus Qs (map uarr oUs) = i_datablock (i_cls t0) mus Qs Us).
    { unfold i_datablock. destruct (has_inputs (i_cls t0)) eqn:Hi; [|reflexivity]. rewrite EU by (unfold ptakes; cbn; auto). reflexivity. }
    rewrite EB. exists B. split; [exact E1|]. split; [exact E2|]. intros o Ho. destruct o as [?|?|t]; cbn [version] in Ho; try tauto.
    destruct Ho as (C1 & ops & F1 & F2 & F3 & F4).
    assert (EO : opblock (PItp t) = hstack (map entries2 ops)). { unfold opblock; cbn. rewrite F1. reflexivity. }
    assert (One : map entries2 ops <> []). { destruct ops, mus; cbn in *; congruence. }
    assert (HB : blocks r (map (fun _ => opdim (proto (i_cls t0)) r m) mus) (map entries2 ops)).
    { rewrite <- C1. replace (map (fun _ : pval => opdim (proto (i_cls t)) r m) mus) with (map (fun _ : op => opdim (proto (i_cls t)) r m) ops).
      - apply family_blocks. exact F2.
      - rewrite !map_const_repeat. congruence. }
    rewrite EO. assert (HE : is_mat r (pw r m (length mus) (PItp t0)) (hstack (map entries2 ops))).
    { cbn [pw]. unfold i_opdim. rewrite <- (lsumn_const mus). apply is_mat_hstack; auto. }
    split; [exact HE|]. intros b Hb. exists {| mo_cls := i_cls t; mo_ent := Some (nth b ops (OConst [])) |}.
    unfold family in F2. rewrite Forall_forall in F2. destruct (F2 (nth b ops (OConst []))) as [Hw Hc]; [apply nth_In; lia|].
    split. { cbn [pop_eval snd]. rewrite F4 by auto. reflexivity. }
    split; [exists (nth b ops (OConst [])); auto|]. split; [exact C1|].
    intros i j Hi Hj. destruct (DQ b Hb) as [HQb HUb]. unfold opval. cbn [mo_ent].
    rewrite <- (colv_datamat_dot r m (nth b ks 0)) by auto.
    assert (Hd : 0 < opdim (proto (i_cls t0)) r m) by (apply op_dim_pos; auto).
    assert (Hd0 : 0 < pw r m (length mus) (PItp t0)). { cbn [pw]. unfold i_opdim. destruct mus; [congruence|cbn [length]; nia]. }
    assert (Hk : lsumn (firstn b ks) + j < lsumn ks).
    { apply offset_lt; auto; lia. }
    rewrite <- (mget_matmul r (pw r m (length mus) (PItp t0)) (lsumn ks)) by auto.
    rewrite (E5 r _ HB).
    assert (HDs : forall b, b < length mus -> nth b Ds [] = datamat (proto (i_cls t0)) (nth b Qs []) (nth b Us [])).
    { intros b' Hb'. destruct (DQ b' Hb') as [Hq Hu]. specialize (E4 b' Hb'). rewrite (datablock_ok r m (nth b' ks 0)) in E4 by auto. congruence. }
    assert (HY : blocks r ks (map2 matmul (map entries2 ops) Ds)).
    { unfold blocks. assert (LL : length (map2 matmul (map entries2 ops) Ds) = length ks). { rewrite map2_len; rewrite map_length; lia. }
      assert (G : forall b, b < length ks -> is_mat r (nth b ks 0) (nth b (map2 matmul (map entries2 ops) Ds) [])).
      { intros b' Hb'. destruct (nth_error_lt ops b') as [ob Eob]; [lia|]. destruct (nth_error_lt Ds b') as [Db EDb]; [lia|].
        rewrite (nth_of_error _ _ (matmul (entries2 ob) Db)).
        2:{ apply nth_error_map2; auto. rewrite nth_error_map, Eob. reflexivity. }
        destruct (F2 ob (nth_error_In _ _ Eob)) as [Hw' Hc']. apply is_mat_matmul with (opdim (proto (i_cls t0)) r m); auto.
        - rewrite <- C1, <- Hc', opdim_proto. apply entries2_shape; auto.
        - assert (EE := HDs b' ltac:(lia)). rewrite (nth_of_error _ _ _ [] EDb) in EE. rewrite EE. destruct (DQ b' ltac:(lia)). apply datamat_shape; auto. }
      clear - LL G. revert ks LL G. induction (map2 matmul (map entries2 ops) Ds) as [|Y l IH]; intros [|k ks] LL G; try discriminate; constructor.
      - apply (G 0). cbn; lia.
      - apply IH; [cbn in LL; lia|]. intros b Hb. apply (G (S b)). cbn; lia. }
    destruct (nth_error_lt ops b) as [ob Eob]; [lia|]. destruct (nth_error_lt Ds b) as [Db EDb]; [lia|].
    rewrite (hstack_get r ks _ Hr HY b (matmul (entries2 ob) Db) (nth b ks 0)); auto.
    2:{ apply nth_error_map2; auto. rewrite nth_error_map, Eob. reflexivity. }
    2:{ apply nth_error_nth'. lia. }
    assert (EE := HDs b Hb). rewrite (nth_of_error _ _ _ [] EDb) in EE. subst Db.
    rewrite (nth_of_error _ _ _ (OConst []) Eob) in *.
    replace (opdim ob r m) with (opdim (proto (i_cls t0)) r m) by (rewrite <- C1, <- Hc; apply opdim_proto).
    rewrite (mget_matmul r (opdim (proto (i_cls t0)) r m) (nth b ks 0)); auto.
    + rewrite Hc, C1. reflexivity.
    + rewrite <- C1, <- Hc, opdim_proto. apply entries2_shape; auto.
    + apply datamat_shape; auto. Qed.

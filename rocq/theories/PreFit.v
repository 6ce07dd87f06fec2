(* PreFit.v -- what fit_transform leaves behind, blocks of variables, pipelines. *)
From Coq Require Import ZArith.
From Verif Require Export PreLocs.
#[local] Open Scope nat_scope.

(* ---- fitting a ShiftScaleTransformer ------------------------------------------------------------------------------------------- *)
Definition shaped (byrow : bool) (n : nat) (c : coef) : Prop :=
  if byrow then exists v, c = Vc v /\ length v = n else exists x, c = Sc x.
Lemma shaped_okc byrow n c : shaped byrow n c -> okc n c.
Proof. destruct byrow; cbn; [intros [v [-> H]]; auto|intros [x ->]; cbn; auto]. Qed.
Lemma mapM_length {A B} (f : A -> res B) l l' : mapM f l = Ok l' -> length l = length l'.
Proof. revert l'; induction l as [|a l IH]; intros l' H; cbn in H; [injection H as <-; auto|].
  destruct (f a); [|discriminate]. destruct (mapM f l); [|discriminate]. injection H as <-. cbn. f_equal. auto. Qed.
Lemma stat_shaped f byrow Y c : stat f byrow Y = Ok c -> shaped byrow (length Y) c.
Proof. unfold stat, shaped. destruct byrow.
  - destruct (mapM f Y) as [l|] eqn:E; [|discriminate]. cbn. intros H. injection H as <-. exists l. split; auto. symmetry. eapply mapM_length; eauto.
  - destruct (f (concat Y)) as [x|]; [|discriminate]. cbn. intros H. injection H as <-. eauto. Qed.
Lemma cmap_shaped byrow n g c : shaped byrow n c -> shaped byrow n (cmap g c).
Proof. unfold shaped. destruct byrow; [intros [v [-> H]]; exists (map g v); split; auto; rewrite map_length; auto|intros [x ->]; cbn; eauto]. Qed.
Lemma cmap2_shaped byrow n g c d e : shaped byrow n c -> shaped byrow n d -> cmap2 g c d = Ok e -> shaped byrow n e.
Proof. unfold shaped. destruct byrow.
  - intros [u [-> Hu]] [v [-> Hv]]. cbn. rewrite Hu, Hv, Nat.eqb_refl. intros E. injection E as <-. eexists. split; [reflexivity|]. rewrite map2_length. lia.
  - intros [x ->] [y ->] E. injection E as <-. eauto. Qed.
Lemma cover_shaped byrow n x c d : shaped byrow n c -> x <> 0%R -> cover x c = Ok d -> shaped byrow n d /\ nzc d.
Proof. unfold cover. destruct (coef_nz c) eqn:E; [|discriminate]. intros Hs Hx H. injection H as <-. split; [apply cmap_shaped; auto|].
  apply coef_nz_iff in E. destruct c as [y|v]; cbn in *.
  - apply Rmult_integral_contrapositive_currified; auto. apply Rinv_neq_0_compat; auto.
  - apply Forall_map. eapply Forall_impl; [|exact E]. intros y Hy. apply Rmult_integral_contrapositive_currified; auto. apply Rinv_neq_0_compat; auto. Qed.
Ltac bindH H := match type of H with bind ?e _ = _ => let E := fresh "E" in destruct e eqn:E; [|discriminate H]; cbn [bind] in H end.
Definition idp (byrow : bool) (n : nat) (p : list stmt) : Prop := p = [] \/ exists mu, shaped byrow n mu /\ p = [Stmt ISub mu; Stmt IAdd mu].
Lemma ss_learn_shaped sc byrow Y al be p : ss_learn sc byrow Y = Ok (al, be, p) ->
  shaped byrow (length Y) al /\ nzc al /\ shaped byrow (length Y) be /\ idp byrow (length Y) p.
Proof. assert (R1 : 1%R <> 0%R) by lra. assert (R2 : 2%R <> 0%R) by lra. assert (LY : length (map (map Rabs) Y) = length Y) by apply map_length.
  destruct sc; cbn [ss_learn]; intros H.
  - do 4 bindH H. injection H as -> -> <-. apply stat_shaped in E, E0. destruct (cover_shaped byrow (length Y) 1 _ _ E0 R1 E1) as [S1 S2].
    split; auto. split; auto. split; [eapply cmap2_shaped; [apply cmap_shaped; exact E|exact S1|exact E2]|left; auto].
  - do 5 bindH H. injection H as -> -> <-. apply stat_shaped in E, E0. assert (S0 := cmap2_shaped _ _ _ _ _ _ E0 E E1).
    destruct (cover_shaped byrow (length Y) 1 _ _ S0 R1 E2) as [S1 S2].
    split; auto. split; auto. split; [eapply cmap2_shaped; [apply cmap_shaped; exact E|exact S1|exact E3]|left; auto].
  - do 5 bindH H. injection H as -> <- <-. apply stat_shaped in E, E0. assert (S0 := cmap2_shaped _ _ _ _ _ _ E0 E E1).
    destruct (cover_shaped byrow (length Y) 2 _ _ S0 R2 E2) as [S1 S2].
    split; auto. split; auto. split; [apply cmap_shaped; eapply cmap2_shaped; [apply cmap_shaped; exact E|exact S1|exact E3]|left; auto].
  - do 2 bindH H. injection H as -> <- <-. apply stat_shaped in E. rewrite LY in E. destruct (cover_shaped byrow (length Y) 1 _ _ E R1 E0) as [S1 S2].
    split; auto. split; auto. split; [|left; auto]. unfold shaped. destruct byrow; [|eauto]. eexists. split; [reflexivity|]. apply repeat_length.
  - do 2 bindH H. apply stat_shaped in E. do 3 bindH H. injection H as -> -> <-. apply stat_shaped in E1. rewrite map_length in E1.
    rewrite exec1_ok in E0 by (try discriminate; apply (shaped_okc byrow); exact E). injection E0 as <-.
    assert (LZ : length (arr_mat (cop ISub a (M Y))) = length Y).
    { assert (H1 := cop_shape ISub a (M Y) (shaped_okc byrow _ _ E)). destruct (cop ISub a (M Y)); [destruct H1|]. cbn in *. symmetry. apply map_length_eq; auto. }
    rewrite LZ in E1. destruct (cover_shaped byrow (length Y) 1 _ _ E1 R1 E2) as [S1 S2].
    split; auto. split; auto. split; [eapply cmap2_shaped; [apply cmap_shaped; exact E|exact S1|exact E3]|right; eauto].
  - destruct byrow; [discriminate|]. do 2 bindH H. injection H as -> <- <-. destruct (cover_shaped false (length Y) 1 (Sc a) al) as [S1 S2]; auto; [cbn; eauto|].
    split; auto. split; auto. split; [cbn; eauto|left; auto].
  - destruct byrow; [discriminate|]. do 4 bindH H. injection H as -> -> <-. destruct (cover_shaped false (length Y) 1 (Sc a0) al) as [S1 S2]; auto; [cbn; eauto|].
    split; auto. split; auto. split; [eapply (cmap2_shaped false); [|exact S1|exact E2]; cbn; eauto|left; auto]. Qed.
Lemma exec_idp byrow n p a : idp byrow n p -> alen a = n -> exec p a = Ok a.
Proof. intros [->|[mu [Hs ->]]] Ha; [reflexivity|]. apply shaped_okc in Hs. subst n. unfold exec. cbn [chain].
  rewrite exec1_ok by (auto; discriminate). cbn [bind]. rewrite exec1_ok by (try discriminate; rewrite cop_alen; auto). cbn [bind].
  f_equal. apply (cop_undo ISub); auto. intros []; discriminate. Qed.
Lemma shaped_coef byrow n c : shaped byrow n c -> ss_coef byrow (Some c) = Ok c.
Proof. destruct byrow; cbn; [intros [v [-> _]]|intros [x ->]]; reflexivity. Qed.
Lemma ss_fit_ok s a s' p : ss_fit s a = Ok (s', p) -> (forall b, exec p a = Ok b -> transform (TSS s') a = Ok b) /\ ss_ready (alen a) s' /\
  ss_cent s' = ss_cent s /\ ss_scaling s' = ss_scaling s /\ ss_byrow s' = ss_byrow s.
Proof. unfold ss_fit. destruct a as [v|Y]; [discriminate|]. intros H. bindH H. destruct a as [mean p1].
  assert (HM : exec p1 (M Y) = Ok (pcop p1 (M Y)) /\ same_shape (M Y) (pcop p1 (M Y)) /\ (if ss_cent s then ss_mean_prog ISub mean else Ok []) = Ok p1 /\
    (ss_cent s = true -> exists m, mean = Some m /\ length m = length Y)).
  { destruct (ss_cent s).
    - bindH E. injection E as <- <-. apply mapM_length in E0. destruct (exec_ok (length Y) [Stmt ISub (Vc a)]) with (a := M Y) as [E1 E2].
      + constructor; [|constructor]. cbn. split; auto. intros []; discriminate. + reflexivity.
      + split; auto. split; auto. split; auto. intros _. exists a. auto.
    - injection E as <- <-. cbn. split; auto. split; auto. split; auto. discriminate. }
  destruct HM as [M1 [M2 [M3 M4]]]. rewrite M1 in H. cbn [bind] in H. bindH H. destruct a as [[al be] p3]. injection H as <- <-. cbn [ss_cent ss_scaling ss_byrow].
  assert (L1 : length (arr_mat (pcop p1 (M Y))) = length Y).
  { destruct (pcop p1 (M Y)); [destruct M2|]. cbn in *. symmetry. apply map_length_eq; auto. }
  assert (LA : alen (pcop p1 (M Y)) = length Y) by (rewrite <- (same_shape_alen _ _ M2); reflexivity).
  destruct (ss_scaling s) as [sc|] eqn:Hsc.
  - bindH E0. destruct a as [[al' be'] p2]. injection E0 as <- <- <-. apply ss_learn_shaped in E1. rewrite L1 in E1. destruct E1 as [S1 [S2 [S3 S4]]]. split; [|split].
    + intros b Hb. cbn [transform transform_prog]. unfold ss_transform_prog, ss_check_trained, ss_is_trained.
      cbn [ss_cent ss_mean ss_scaling ss_scale ss_shift is_none negb ss_n ss_byrow].
      assert (HC : ss_cent s && is_none mean = false).
      { destruct (ss_cent s); auto. destruct (M4 eq_refl) as [m [-> _]]. reflexivity. }
      rewrite HC. cbn [orb andb negb bind check_shape alen]. rewrite Nat.eqb_refl. cbn [bind]. rewrite M3. cbn [bind].
      rewrite (shaped_coef _ _ _ S1), (shaped_coef _ _ _ S3). cbn [bind]. rewrite !exec_app in *. rewrite M1 in *. cbn [bind] in *.
      rewrite exec_app in Hb. rewrite (exec_idp _ _ _ _ S4 LA) in Hb. cbn [bind] in Hb. exact Hb.
    + split; [reflexivity|]. split; [exact M4|]. intros _. cbn [ss_byrow ss_scale ss_shift]. destruct (ss_byrow s).
      * destruct S1 as [u [-> Hu]], S3 as [v [-> Hv]]. exists u, v. auto.
      * destruct S1 as [u ->], S3 as [v ->]. exists u, v. auto.
    + auto.
  - injection E0 as <- <- <-. split; [|split].
    + intros b Hb. cbn [transform transform_prog]. unfold ss_transform_prog, ss_check_trained, ss_is_trained.
      cbn [ss_cent ss_mean ss_scaling ss_scale ss_shift is_none negb ss_n ss_byrow].
      assert (HC : ss_cent s && is_none mean = false).
      { destruct (ss_cent s); auto. destruct (M4 eq_refl) as [m [-> _]]. reflexivity. }
      rewrite HC. cbn [orb andb negb bind check_shape alen]. rewrite Nat.eqb_refl. cbn [bind]. rewrite M3. cbn [bind]. exact Hb.
    + split; [reflexivity|]. split; [exact M4|]. cbn. congruence.
    + auto. Qed.

(* ---- fitting any transformer ---------------------------------------------------------------------------------------------------- *)
Definition fits (t : tf) : Prop := forall nx a t' b, fit_from nx t a = Ok (t', b) -> trained (alen a) t' /\ built t' /\ transform t' a = Ok b.
Lemma leaf_fit t : leaf t -> built t -> fits t.
Proof. intros HL HB nx a t' b. destruct t as [ref nm|c d nm|s|d nm|l nm|l]; try (destruct HL; fail); cbn [fit_from].
  - replace (match nx with Some nx0 => tf_set_base nx0 (TShift ref nm) | None => TShift ref nm end) with (TShift ref nm) by (destruct nx; reflexivity).
    cbn [fit_prog transform_prog]. unfold check_shape. destruct (Nat.eqb_spec (alen a) (length ref)) as [E|E]; [|discriminate]. cbn [bind].
    intros H. bindH H. injection H as <- <-. cbn [trained built transform transform_prog]. unfold check_shape.
    rewrite E, Nat.eqb_refl. cbn [bind]. rewrite E0. auto.
  - destruct HB as [HB1 HB2].
    set (t0 := match nx with Some nx0 => tf_set_base nx0 (TScale c d nm) | None => TScale c d nm end).
    assert (Ht0 : exists d0, t0 = TScale c d0 nm /\ match c with Vc v => d0 <> None | Sc _ => True end).
    { unfold t0. destruct nx; eexists; (split; [reflexivity|]); destruct c; auto; try discriminate. destruct HB2 as [->|[_ ?]]; [discriminate|auto]. }
    destruct Ht0 as [d0 [-> Hd0]]. cbn [fit_prog]. intros H.
    set (d1 := match c with Sc _ => Some (alen a) | Vc _ => d0 end).
    replace (match c with Sc _ => TScale c (Some (alen a)) nm | Vc _ => TScale c d0 nm end) with (TScale c d1 nm) in H by (unfold d1; destruct c; reflexivity).
    cbn [transform_prog] in H. destruct d1 as [m|] eqn:Em; [|destruct c; [discriminate|unfold d1 in Em; congruence]].
    cbn [need_dim bind check_shape] in H. destruct (Nat.eqb_spec (alen a) m) as [E|E]; [|discriminate H]. cbn [bind] in H. bindH H. injection H as <- <-.
    assert (Hc : nonzero_coef (alen a) c /\ match c with Vc v => Some m = Some (length v) \/ length v = 1 /\ Some m <> None | Sc _ => True end).
    { apply coef_nz_iff in HB1. destruct c as [x|v]; [split; auto|]. rewrite exec_one in E0. unfold exec1 in E0. cbn [s_op s_coef] in E0.
      unfold bcast in E0. destruct (Nat.eqb_spec (length v) (alen a)) as [El|El].
      - split; [split; [left|]; auto|]. left. congruence.
      - destruct v as [|x [|y v]]; try discriminate E0. split; [split; [right|]; auto|]. right. split; auto. discriminate. }
    destruct Hc as [Hc1 Hc2]. split; [split; [congruence|auto]|]. split; [split; auto|]. cbn [transform transform_prog need_dim bind check_shape].
    rewrite E, Nat.eqb_refl. cbn [bind]. rewrite E0. reflexivity.
  - set (s0 := match nx with Some nx0 => ss_set s (ss_name s) (Some nx0) | None => s end).
    replace (match nx with Some nx0 => tf_set_base nx0 (TSS s) | None => TSS s end) with (TSS s0) by (unfold s0; destruct nx; reflexivity).
    cbn [fit_prog]. intros H. bindH H. destruct a0 as [t0 p]. bindH E. destruct a0 as [s' p']. injection E as <- <-. bindH H. injection H as <- <-.
    destruct (ss_fit_ok _ _ _ _ E0) as [F1 [F2 [F3 [F4 F5]]]]. split; auto. split; auto. cbn [built] in *. rewrite F4, F5. unfold s0. destruct nx; auto.
  - intros H. assert (E : t' = TNull (Some (alen a)) nm /\ b = a).
    { destruct nx; cbn in H; injection H as <- <-; auto. } destruct E as [-> ->].
    split; [reflexivity|]. split; [exact I|]. cbn [transform transform_prog check_shape]. rewrite Nat.eqb_refl. reflexivity. Qed.
Lemma C_fit t : built t -> fits t.
Proof. induction t as [r nm|c d nm|s|d nm|l nm IH|l IH] using tf_ind'; intros HB.
  1-4: (apply leaf_fit; [exact I|exact HB]).
  - apply built_pipe in HB. destruct HB as [Hl HB]. intros nx a t' b H. cbn [fit_from] in H. bindH H. destruct a0 as [l' b']. injection H as <- <-.
    assert (G : length l' = length l /\ Forall (trained (alen a)) l' /\ Forall built l' /\ chain transform l' a = Ok b' /\ alen b' = alen a).
    { destruct l as [|t0 l0]; [congruence|]. unfold pipe_fit in E. remember (t0 :: l0) as l. clear Heql t0 l0 Hl. revert a l' b' E.
      induction l as [|t l IHl]; intros a l' b' E.
      - cbn in E. injection E as <- <-. repeat split; constructor.
      - apply Forall_cons_iff in IH, HB. destruct IH as [IHt IH], HB as [HBt HB]. cbn in E. bindH E. destruct a0 as [t' b]. 
        change ((fix go (l : list tf) (a : arr) {struct l} : res (list tf * arr) := match l with | [] => Ok ([], a) | t :: l' => do tb <- fit_from None t a; let '(t', b) := tb in do rest <- go l' b; let '(ts, c) := rest in Ok (t' :: ts, c) end) l b) with (chain_fit (fit_from None) l b) in E.
        bindH E. destruct a0 as [ts c]. injection E as <- <-. destruct (IHt HBt None a t' b E0) as [T1 [T2 T3]].
        destruct (C01_all t' (alen a) T1 a eq_refl) as [[b'' [F1 [F2 _]]] _]. rewrite T3 in F1. injection F1 as <-. apply same_shape_alen in F2.
        destruct (IHl IH HB b ts c E1) as [G1 [G2 [G3 [G4 G5]]]]. rewrite <- F2 in *. repeat split; cbn; auto; try lia.
        rewrite T3. cbn [bind]. exact G4. }
    destruct G as [G1 [G2 [G3 [G4 G5]]]]. assert (Hl' : l' <> []) by (destruct l'; [destruct l; [congruence|discriminate]|discriminate]).
    split; [apply trained_pipe; auto|]. split; [apply built_pipe; auto|]. cbn [transform]. rewrite pipe_chain; auto.
  - apply built_multi in HB. destruct HB as [Hl HB]. intros nx a t' b H. cbn [fit_from] in H. bindH H. clear E. rename a0 into x.
    bindH H. rename a0 into qs. bindH H. rename a0 into ys. bindH H. injection H as <- <-. rename a0 into b.
    unfold multi_split in E. bindH E. injection E as <-. unfold multi_check in E2. destruct (allsome _) as [ns|] eqn:EA in E2; [|discriminate].
    destruct (Nat.eqb_spec (alen a) (lsumn ns)) as [Ha|]; [|discriminate]. injection E2 as <-.
    assert (HLn : length ns = length l).
    { apply allsome_length in EA. rewrite <- EA. unfold variable_sizes. rewrite map_length. destruct x; [apply map_length|reflexivity]. }
    apply zipM_unique in E0; [|rewrite split_rows_length; auto].
    assert (HSA := split_alens ns a Ha). assert (HLS := split_rows_length ns a).
    assert (G : Forall2 trained ns (map fst ys) /\ Forall built (map fst ys) /\ zipM transform (map fst ys) (split_rows ns a) = Ok (map snd ys)).
    { clear EA Ha Hl E1. generalize dependent (split_rows ns a). revert ns HLn ys. induction l as [|t l IHl]; intros ns HLn ys qs E0 HSA HLS.
      - destruct ns; [|discriminate]. cbn in E0. inversion E0; subst. repeat split; constructor.
      - destruct ns as [|n ns]; [discriminate|]. destruct qs as [|q qs]; [discriminate|]. cbn in E0, HSA, HLS. injection HSA as HS1 HS2.
        inversion E0 as [|? y ? ys' E1 E2]; subst. destruct y as [t' b']. cbn [fst snd] in E1. apply Forall_cons_iff in IH, HB.
        destruct IH as [IHt IH], HB as [HBt HB]. destruct (IHt HBt x q t' b' E1) as [T1 [T2 T3]].
        destruct (IHl IH HB (map alen qs) ltac:(cbn in HLn; lia) ys' qs E2 eq_refl ltac:(lia)) as [G1 [G2 G3]].
        cbn [map fst snd]. split; [constructor; auto|]. split; [constructor; auto|]. cbn [zipM]. rewrite T3. cbn [bind].
        change ((fix go (l : list tf) (qs : list arr) {struct l} : res (list arr) := match l with | [] => Ok [] | t :: l' => match qs with [] => Ok [] | q :: qs' => do y <- transform t q; do ys <- go l' qs'; Ok (y :: ys) end end) (map fst ys') qs) with (zipM transform (map fst ys') qs).
        rewrite G3. reflexivity. }
    destruct G as [G1 [G2 G3]]. assert (Hl' : map fst ys <> []).
    { intros E. rewrite E in G1. inversion G1; subst. destruct l; [congruence|discriminate]. }
    split; [rewrite Ha; apply trained_multi; eauto|]. split; [apply built_multi; auto|]. cbn [transform]. unfold multi_apply.
    rewrite (multi_split_ok _ ns); auto; [|apply variable_sizes_trained; auto]. cbn [bind]. rewrite G3. exact E1. Qed.

(* PreLocs.v -- inverse_transform(locs=...), fitting, blocks of variables. *)
From Coq Require Import ZArith.
From Verif Require Export PreProofs.
#[local] Open Scope nat_scope.

(* ---- C02 -------------------------------------------------------------------------------------------------------------------- *)
Lemma py_slice_in {A} a b (l : list A) x : In x (py_slice a b l) -> In x l.
Proof. unfold py_slice, slice. intros H.
  assert (HF : forall k (m : list A), In x (firstn k m) -> In x m) by (intros k m Hm; rewrite <- (firstn_skipn k m); apply in_or_app; auto).
  assert (HS : forall k (m : list A), In x (skipn k m) -> In x m) by (intros k m Hm; rewrite <- (firstn_skipn k m); apply in_or_app; auto).
  apply HF in H. apply HS in H. exact H. Qed.
Lemma selects_lt n s idx : selects n s idx -> Forall (fun i => i < n) idx.
Proof. destruct s as [zs|s]; cbn.
  - induction 1 as [|z i zs idx [H _] HF IH]; constructor; auto.
  - intros ->. apply Forall_forall. intros i Hi. apply py_slice_in in Hi. apply in_seq in Hi. lia. Qed.
Lemma norm_index_ok n z i : i < n -> (z = Z.of_nat i \/ z = Z.of_nat i - Z.of_nat n)%Z -> norm_index n z = Ok i.
Proof. intros Hi Hz. unfold norm_index. destruct (Z.ltb_spec z 0) as [H|H].
  - destruct Hz as [ -> | -> ]; [lia|]. replace (Z.of_nat i - Z.of_nat n + Z.of_nat n)%Z with (Z.of_nat i) by lia.
    destruct (Z.leb_spec 0 (Z.of_nat i)), (Z.ltb_spec (Z.of_nat i) (Z.of_nat n)); cbn [andb]; try lia. rewrite Nat2Z.id. reflexivity.
  - destruct Hz as [ -> | -> ]; [|lia].
    destruct (Z.leb_spec 0 (Z.of_nat i)), (Z.ltb_spec (Z.of_nat i) (Z.of_nat n)); cbn [andb]; try lia. rewrite Nat2Z.id. reflexivity. Qed.
Lemma check_locs_ok n s idx : selects n s idx -> exists zs, mapM (norm_index n) zs = Ok idx /\
  forall a, check_locs (Some n) s a = if alen a =? length idx then Ok zs else Err ValueError.
Proof. intros H. assert (HL := selects_lt n s idx H). destruct s as [zs|s].
  - exists zs. cbn in H. split.
    + induction H as [|z i zs idx [H1 H2] HF IH]; auto. apply Forall_cons_iff in HL. destruct HL as [_ HL]. cbn. rewrite (norm_index_ok n z i) by auto.
      rewrite IH by auto. reflexivity.
    + intros a. unfold check_locs. cbn [bind]. rewrite (F2_length _ _ _ H). reflexivity.
  - cbn in H. exists (map Z.of_nat idx). split.
    + clear H. induction HL as [|i idx Hi HL IH]; auto. cbn. rewrite (norm_index_ok n _ i) by auto. rewrite IH. reflexivity.
    + intros a. unfold check_locs. cbn [bind]. rewrite <- H, map_length. reflexivity. Qed.
Lemma vtake_ok n v zs idx : length v = n -> mapM (norm_index n) zs = Ok idx -> vtake v zs = Ok (take_at 0%R v idx).
Proof. intros <- H. unfold vtake. rewrite H. reflexivity. Qed.
Lemma asel_alen idx a : alen (asel idx a) = length idx. Proof. destruct a; cbn; apply map_length. Qed.
Definition csel (idx : list nat) (c : coef) : coef := match c with Sc x => Sc x | Vc v => Vc (take_at 0%R v idx) end.
Definition psel (idx : list nat) (p : list stmt) : list stmt := map (fun s => Stmt (s_op s) (csel idx (s_coef s))) p.
Lemma cop_asel o c idx a : okc (alen a) c -> Forall (fun i => i < alen a) idx -> cop o (csel idx c) (asel idx a) = asel idx (cop o c a).
Proof. destruct c as [x|v], a as [u|m]; cbn; intros Hc Hi; f_equal; unfold take_at.
  - rewrite map_map. apply map_ext_in. intros i Hin. rewrite Forall_forall in Hi. symmetry.
    rewrite (nth_map_in (fun y => aop_fun o y x) u i 0%R 0%R); auto.
  - rewrite map_map. apply map_ext_in. intros i Hin. rewrite Forall_forall in Hi. symmetry.
    rewrite (nth_map_in (map (fun y => aop_fun o y x)) m i [] []); auto.
  - rewrite map2_map, map2_same. apply map_ext_in. intros i Hin. rewrite Forall_forall in Hi. symmetry.
    rewrite (map2_nth (aop_fun o) u v i 0%R 0%R 0%R); auto. rewrite Hc; auto.
  - rewrite map2_map, map2_same. apply map_ext_in. intros i Hin. rewrite Forall_forall in Hi. symmetry.
    rewrite (map2_nth (fun row x => map (fun y => aop_fun o y x) row) m v i [] 0%R []); auto. rewrite Hc; auto. Qed.
Lemma nzc_csel idx c n : okc n c -> Forall (fun i => i < n) idx -> nzc c -> nzc (csel idx c).
Proof. destruct c as [x|v]; cbn; auto. intros <- Hi Hz. apply Forall_forall. intros y Hy. apply in_map_iff in Hy. destruct Hy as [i [<- Hin]].
  rewrite Forall_forall in Hz, Hi. apply Hz. apply nth_In. auto. Qed.
Lemma exec_psel n p : okp n p -> forall idx a, alen a = n -> Forall (fun i => i < n) idx -> exec (psel idx p) (asel idx a) = Ok (asel idx (pcop p a)).
Proof. induction p as [|[o c] p IH]; intros Hp idx a Ha Hi; [reflexivity|]. apply Forall_cons_iff in Hp. destruct Hp as [[Hc Hd] Hp]. cbn [s_op s_coef] in *.
  subst n. cbn [psel map s_op s_coef]. change (exec (?s :: ?l) ?x) with (do b <- exec1 s x; exec l b). rewrite exec1_ok.
  - cbn [bind]. rewrite cop_asel by auto. change (map ?f p) with (psel idx p). rewrite IH; auto. apply cop_alen; auto.
  - rewrite asel_alen. destruct c as [x|v]; cbn; auto. unfold take_at. apply map_length.
  - intros ->. apply (nzc_csel idx c (alen a)); auto. Qed.
Lemma invp_psel idx p : invp (psel idx p) = psel idx (invp p).
Proof. unfold invp, psel. rewrite map_rev, !map_map. reflexivity. Qed.
(* with locs a flat member runs the selected statements *)
Lemma leaf_locs n t : leaf t -> trained n t -> flat t -> exists p, leaf_ok n t p /\
  forall s idx, selects n s idx -> forall a, inverse_transform t (Some s) a = if alen a =? length idx then exec (psel idx (invp p)) a else Err ValueError.
Proof. destruct t as [ref nm|c d nm|s|d nm|l nm|l]; cbn [leaf]; try tauto; intros HL H HFl.
  - exists [Stmt ISub (Vc ref)]. split.
    + split; [|split].
      * constructor; [|constructor]. cbn. split; auto. intros []; discriminate.
      * repeat constructor. discriminate.
      * intros a Ha. cbn [trained] in H. subst n. cbn [transform inverse_transform transform_ddts transform_prog inverse_prog ddts_prog].
        rewrite !check_shape_ok by auto. repeat split; reflexivity.
    + intros s idx Hs a. cbn [trained] in H. destruct (check_locs_ok n s idx Hs) as [zs [E1 E2]]. cbn [inverse_transform inverse_prog].
      rewrite H, E2. destruct (alen a =? length idx); [|reflexivity]. cbn [bind]. rewrite (vtake_ok n) with (idx := idx) by auto. reflexivity.
  - destruct H as [-> Hc]. assert (Hc' : okc n c /\ nzc c).
    { destruct c as [x|v]; cbn in *; auto. injection HFl as Hn. destruct Hc; auto. }
    destruct Hc' as [Hc1 Hc2]. exists [Stmt IMul c]. split.
    + split; [|split].
      * constructor; [|constructor]. cbn. auto.
      * repeat constructor. discriminate.
      * intros a Ha. cbn [transform inverse_transform transform_ddts transform_prog inverse_prog ddts_prog]. rewrite !check_shape_ok by auto. repeat split.
    + intros s idx Hs a. destruct (check_locs_ok n s idx Hs) as [zs [E1 E2]]. cbn [inverse_transform inverse_prog need_dim bind].
      rewrite E2. destruct (alen a =? length idx); [|reflexivity]. cbn [bind]. destruct c as [x|v]; cbn [bind]; [reflexivity|].
      rewrite (vtake_ok n) with (idx := idx) by auto. reflexivity.
  - assert (HT := ss_ready_trained n s H). assert (H' := H). destruct H as [Hn [Hm Hs]].
    set (pm := if ss_cent s then match ss_mean s with Some m => [Stmt ISub (Vc m)] | None => [] end else []).
    set (pc := match ss_scaling s, ss_scale s, ss_shift s with Some _, Some al, Some be => [Stmt IMul al; Stmt IAdd be] | _, _, _ => [] end).
    assert (Hleaf : leaf_ok n (TSS s) (pm ++ pc)).
    { assert (Hpm : okp n pm /\ nodiv pm /\ linp pm = [] /\ (if ss_cent s then ss_mean_prog ISub (ss_mean s) else Ok []) = Ok pm /\
        (if ss_cent s then match ss_mean s with None => Err AttributeError | Some m => Ok [Stmt IAdd (Vc m)] end else Ok []) = Ok (invp pm)).
      { unfold pm. destruct (ss_cent s); [|repeat split; constructor]. destruct (Hm eq_refl) as [m [-> Hl]]. repeat split.
        - constructor; [|constructor]. cbn. split; auto. intros []; discriminate. - repeat constructor; discriminate. }
      destruct Hpm as [P1 [P2 [P3 [P4 P5]]]].
      assert (Hpc : okp n pc /\ nodiv pc /\
        match ss_scaling s with None => Ok [] | Some _ => do al <- ss_coef (ss_byrow s) (ss_scale s); do be <- ss_coef (ss_byrow s) (ss_shift s); Ok [Stmt IMul al; Stmt IAdd be] end = Ok pc /\
        match ss_scaling s with None => Ok [] | Some _ => do be' <- ss_coef (ss_byrow s) (ss_shift s); do al' <- ss_coef (ss_byrow s) (ss_scale s); Ok [Stmt ISub be'; Stmt IDiv al'] end = Ok (invp pc) /\
        match ss_scaling s with None => Ok [] | Some _ => do al <- ss_coef (ss_byrow s) (ss_scale s); Ok [Stmt IMul al] end = Ok (linp pc)).
      { unfold pc. destruct (ss_scaling s); [|repeat split; constructor]. specialize (Hs ltac:(discriminate)).
        destruct (ss_byrow s); destruct Hs as [al [be [-> [-> Hz]]]]; repeat split.
        - destruct Hz as [L1 [L2 Hz]]. constructor; [|constructor; [|constructor]]; cbn; auto. split; auto. intros []; discriminate.
        - repeat constructor; discriminate.
        - constructor; [|constructor; [|constructor]]; cbn; auto. split; auto. intros []; discriminate.
        - repeat constructor; discriminate. }
      destruct Hpc as [Q1 [Q2 [Q3 [Q4 Q5]]]]. split; [apply okp_app; auto|]. split; [apply Forall_app; auto|].
      intros a Ha. cbn [transform inverse_transform transform_ddts transform_prog inverse_prog ddts_prog].
      unfold ss_transform_prog, ss_inverse_prog, ss_ddts_prog, ss_check_trained. rewrite HT, Hn, check_shape_ok by auto. cbn [bind].
      rewrite P4, Q3. cbn [bind]. rewrite Q4, Q5. cbn [bind]. rewrite P5. cbn [bind].
      replace (invp (pm ++ pc)) with (invp pc ++ invp pm) by (unfold invp; rewrite map_app, rev_app_distr; reflexivity).
      replace (linp (pm ++ pc)) with (linp pc) by (unfold linp in *; rewrite filter_app, P3; reflexivity). auto. }
    exists (pm ++ pc). split; [exact Hleaf|]. intros s' idx Hsel a. destruct (check_locs_ok n s' idx Hsel) as [zs [E1 E2]].
    replace (psel idx (invp (pm ++ pc))) with (psel idx (invp pc) ++ psel idx (invp pm))
      by (unfold invp, psel; rewrite map_app, rev_app_distr, map_app; reflexivity).
    cbn [inverse_transform inverse_prog]. unfold ss_inverse_prog, ss_check_trained. rewrite HT, Hn, E2. cbn [bind].
    destruct (alen a =? length idx); [|reflexivity]. cbn [bind]. unfold pm, pc. cbn [flat] in HFl. clear Hleaf.
    assert (HM : (if ss_cent s then match ss_mean s with None => Err TypeError | Some m => do m' <- vtake m zs; Ok [Stmt IAdd (Vc m')] end else Ok [])
      = Ok (psel idx (invp (if ss_cent s then match ss_mean s with Some m => [Stmt ISub (Vc m)] | None => [] end else [])))).
    { destruct (ss_cent s); [|reflexivity]. destruct (Hm eq_refl) as [m [-> Hl]]. rewrite (vtake_ok n) with (idx := idx) by auto. reflexivity. }
    destruct (ss_byrow s) eqn:Hb.
    + destruct (ss_scaling s) as [sc|] eqn:Hsc; [|exfalso; apply HFl; auto]. specialize (Hs ltac:(discriminate)).
      destruct Hs as [al [be [Ea [Eb [L1 [L2 Hz]]]]]]. rewrite Ea, Eb. cbn [coef_take]. rewrite !(vtake_ok n) with (idx := idx) by auto. cbn [bind ss_coef].
      replace (match ss_mean s with Some m => do m' <- vtake m zs; Ok [Stmt IAdd (Vc m')] | None => Err TypeError end) with
        (match ss_mean s with None => Err TypeError | Some m => do m' <- vtake m zs; Ok [Stmt IAdd (Vc m')] end) by reflexivity.
      rewrite HM. reflexivity.
    + destruct (ss_scaling s) as [sc|] eqn:Hsc.
      * specialize (Hs ltac:(discriminate)). destruct Hs as [al [be [Ea [Eb Hz]]]]. rewrite Ea, Eb. cbn [bind ss_coef]. rewrite HM. reflexivity.
      * cbn [bind]. rewrite HM. reflexivity.
  - cbn in H. subst d. exists []. split.
    + split; [constructor|]. split; [constructor|]. intros a Ha. cbn [transform inverse_transform transform_ddts transform_prog inverse_prog ddts_prog].
      rewrite !check_shape_ok by auto. repeat split.
    + intros s idx Hs a. destruct (check_locs_ok n s idx Hs) as [zs [E1 E2]]. cbn [inverse_transform inverse_prog].
      rewrite E2. destruct (alen a =? length idx); reflexivity. Qed.
Definition at_locs (n : nat) (t : tf) : Prop := forall s idx, selects n s idx ->
  (forall a b, alen b = n -> inverse_transform t None b = Ok a -> inverse_transform t (Some s) (asel idx b) = Ok (asel idx a)) /\
  (forall b, alen b <> length idx -> inverse_transform t (Some s) b = Err ValueError).
Lemma C02_flat t : forall n, trained n t -> flat t -> at_locs n t.
Proof. induction t as [r nm|c d nm|s0|d nm|l nm IH|l IH] using tf_ind'; intros n H HF.
  1-4: (edestruct (leaf_locs n) as [p [[Hp [_ H1]] H2]]; [|exact H|exact HF|]; [exact I|]; intros s idx Hs; split;
    [intros a b Hb E; rewrite (H2 s idx Hs); rewrite asel_alen, Nat.eqb_refl; rewrite (exec_psel n _ (okp_inv n p Hp)); auto; [|apply selects_lt with s; auto];
     destruct (H1 b Hb) as [_ [E2 _]]; rewrite E2 in E; destruct (exec_ok n _ (okp_inv n p Hp) b Hb) as [E3 _]; congruence
    |intros b Hb; rewrite (H2 s idx Hs); destruct (Nat.eqb_spec (alen b) (length idx)); [congruence|reflexivity]]).
  - apply trained_pipe in H. destruct H as [Hl H]. apply flat_pipe in HF. intros s idx Hs. cbn [inverse_transform]. split.
    + intros a b Hb E. rewrite pipe_rev_chain in * by auto. clear Hl. revert a E. induction l as [|t l IHl]; intros a E.
      * cbn in *. injection E as <-. reflexivity.
      * apply Forall_cons_iff in H, HF, IH. destruct H as [Ht H], HF as [HFt HF], IH as [IHt IH]. rewrite chain_rev_cons in *.
        destruct (chain_rev (fun t => inverse_transform t None) l b) as [c|] eqn:E1; [|discriminate]. cbn [bind] in E.
        rewrite (IHl IH H HF c eq_refl). cbn [bind]. apply (IHt n Ht HFt s idx Hs); auto.
        assert (HC : forall l, Forall (trained n) l -> forall b c, alen b = n -> chain_rev (fun t => inverse_transform t None) l b = Ok c -> alen c = n).
        { clear. induction l as [|t l IH]; intros H b c Hb E; [cbn in E; injection E as <-; auto|]. apply Forall_cons_iff in H. destruct H as [Ht H].
          rewrite chain_rev_cons in E. destruct (chain_rev (fun t => inverse_transform t None) l b) as [e|] eqn:E1; [|discriminate]. cbn [bind] in E.
          specialize (IH H b e Hb E1). destruct (C01_all t n Ht e IH) as [_ [y [E2 [E3 _]]]]. rewrite E2 in E. injection E as <-.
          rewrite <- IH. symmetry. apply same_shape_alen; auto. }
        eapply HC; eauto.
    + intros b Hb. rewrite pipe_rev_chain by auto. induction l as [|t l IHl]; [congruence|].
      apply Forall_cons_iff in H, HF, IH. destruct H as [Ht H], HF as [HFt HF], IH as [IHt IH]. rewrite chain_rev_cons.
      destruct l as [|t' l]; [cbn [chain_rev bind]; apply (IHt n Ht HFt s idx Hs); auto|].
      rewrite IHl; auto. discriminate.
  - destruct HF. Qed.

(* ---- blocks put together, and cut again ---------------------------------------------------------------------------------------- *)
Lemma allsome_V ys vs : allsome (map a_isV ys) = Some vs -> ys = map V vs.
Proof. revert vs; induction ys as [|[v|m] ys IH]; intros vs H; cbn in H; try discriminate; [injection H as <-; auto|].
  destruct (allsome (map a_isV ys)) as [ws|]; [|discriminate]. injection H as <-. cbn. f_equal. auto. Qed.
Lemma allsome_M ys vs : allsome (map a_isM ys) = Some vs -> ys = map M vs.
Proof. revert vs; induction ys as [|[v|m] ys IH]; intros vs H; cbn in H; try discriminate; [injection H as <-; auto|].
  destruct (allsome (map a_isM ys)) as [ws|]; [|discriminate]. injection H as <-. cbn. f_equal. auto. Qed.
Lemma split_concat ys c : aconcat ys = Ok c -> split_rows (map alen ys) c = ys /\ alen c = lsumn (map alen ys).
Proof. intros H. destruct ys as [|y ys]; [discriminate|]. unfold aconcat in H. destruct y as [v|m].
  - destruct (allsome (map a_isV (V v :: ys))) as [vs|] eqn:E; [|discriminate]. apply allsome_V in E. rewrite E in *. injection H as <-.
    rewrite split_rows_V, map_map. cbn [alen]. change (map (fun x : list R => length x) vs) with (map (@length R) vs). rewrite lsplit_concat, concat_length'. auto.
  - destruct (allsome (map a_isM (M m :: ys))) as [vs|] eqn:E; [|discriminate]. apply allsome_M in E. rewrite E in *. injection H as <-.
    rewrite split_rows_M, map_map. cbn [alen]. change (map (fun x : list (list R) => length x) vs) with (map (@length (list R)) vs). rewrite lsplit_concat, concat_length'. auto. Qed.
Lemma lsumn_repeat n k : lsumn (repeat n k) = k * n. Proof. induction k; cbn; auto. Qed.
Lemma np_split_ok ys c n : aconcat ys = Ok c -> Forall (fun y => alen y = n) ys -> np_split (length ys) c = Ok ys.
Proof. intros H HF. destruct (split_concat ys c H) as [E1 E2]. assert (EA : map alen ys = repeat n (length ys)).
  { clear - HF. induction HF as [|y ys Hy HF IH]; auto. cbn. congruence. }
  rewrite EA, lsumn_repeat in E2. assert (Hl : length ys <> 0) by (destruct ys; [discriminate|cbn; lia]).
  unfold np_split. rewrite E2, Nat.mul_comm, Nat.mod_mul, Nat.div_mul by auto. cbn. rewrite <- EA, E1. reflexivity. Qed.
Lemma all_same_repeat n k : all_same (repeat n k) = true.
Proof. destruct k; auto. cbn. apply forallb_forall. intros x Hx. apply repeat_spec in Hx. subst. apply Nat.eqb_refl. Qed.
Lemma all_same_iff l : all_same l = true <-> forall x y, In x l -> In y l -> x = y.
Proof. destruct l as [|n l]; cbn; [split; auto; intros _ x y []|]. rewrite forallb_forall. split.
  - intros H x y [->|Hx] [->|Hy]; auto; [apply H in Hy|apply H in Hx|apply H in Hx; apply H in Hy]; repeat match goal with E : (_ =? _) = true |- _ => apply Nat.eqb_eq in E end; congruence.
  - intros H x Hx. apply Nat.eqb_eq. apply H; auto. Qed.
Lemma trained_repeat n l : Forall (trained n) l -> Forall2 trained (repeat n (length l)) l.
Proof. induction 1; cbn; constructor; auto. Qed.
(* TransformerMulti with locs: every variable has n rows; the argument stacks rows idx of every variable *)
Lemma C02_multi n l s idx : l <> [] -> Forall (trained n) l -> Forall flat l -> selects n s idx ->
  let ns := repeat n (length l) in
  forall a b bs, alen b = lsumn ns -> inverse_transform (TMulti l) None b = Ok a -> aconcat (map (asel idx) (split_rows ns b)) = Ok bs ->
  exists as', aconcat (map (asel idx) (split_rows ns a)) = Ok as' /\ inverse_transform (TMulti l) (Some s) bs = Ok as'.
Proof. intros Hl HT HF Hs ns a b bs Hb E Ebs. assert (H2 := trained_repeat n l HT). fold ns in H2. assert (HD := variable_sizes_trained ns l H2).
  assert (Hns : ns <> []) by (unfold ns; destruct l; [congruence|discriminate]).
  assert (TM : trained (lsumn ns) (TMulti l)) by (apply trained_multi; split; eauto).
  destruct (C01_all _ _ TM b Hb) as [_ [a' [E1 [E2 _]]]]. rewrite E in E1. injection E1 as <-.
  assert (Ha : alen a = lsumn ns) by (rewrite <- Hb; symmetry; apply same_shape_alen; auto).
  cbn [inverse_transform] in E. unfold multi_split_locs in E. rewrite HD in E. rewrite (multi_split_ok _ ns) in E by auto. cbn [bind] in E.
  destruct (zipM (fun t => inverse_transform t None) l (split_rows ns b)) as [ys|] eqn:EZ; [|discriminate]. cbn [bind] in E.
  assert (HL : length l = length ns) by (unfold ns; rewrite repeat_length; auto).
  apply zipM_unique in EZ; [|rewrite split_rows_length; auto].
  assert (Hyl : length ys = length ns). { rewrite <- (F2_length _ _ _ EZ), combine_length, split_rows_length. lia. }
  assert (Hya : map alen ys = ns).
  { assert (S1 := split_alens ns b Hb). clear - EZ H2 S1. unfold ns in *. clearbody ns. clear ns. revert ys EZ. generalize dependent (split_rows (repeat n (length l)) b).
    induction l as [|t l IH]; intros qs S1 ys EZ; [cbn in EZ; inversion EZ; reflexivity|]. destruct qs as [|q qs]; [discriminate|]. cbn in S1, EZ, H2.
    injection S1 as Sa Sb. inversion EZ as [|? y ? ys' EZ1 EZ2]; subst. inversion H2; subst. cbn. f_equal; [|apply IH with qs; auto].
    cbn in EZ1. destruct (C01_all t (alen q) ltac:(assumption) q eq_refl) as [_ [y' [G1 [G2 _]]]]. rewrite EZ1 in G1. injection G1 as <-.
    symmetry. apply same_shape_alen; auto. }
  destruct (split_concat ys a E) as [E3 _]. rewrite Hya in E3. rewrite E3.
  assert (EL : inverse_transform (TMulti l) (Some s) bs = do ws <- zipM (fun t => inverse_transform t (Some s)) l (map (asel idx) (split_rows ns b)); aconcat ws).
  { cbn [inverse_transform]. unfold multi_split_locs. rewrite HD. replace (all_same ns) with true by (symmetry; apply all_same_repeat). cbn [negb].
    assert (EN := np_split_ok (map (asel idx) (split_rows ns b)) bs (length idx) Ebs). rewrite map_length, split_rows_length, <- HL in EN.
    unfold variable_sizes. rewrite map_length, EN; auto. apply Forall_forall. intros y Hy. apply in_map_iff in Hy. destruct Hy as [x [<- _]]. apply asel_alen. }
  rewrite EL. assert (EW : zipM (fun t => inverse_transform t (Some s)) l (map (asel idx) (split_rows ns b)) = Ok (map (asel idx) ys)).
  { assert (S1 := split_alens ns b Hb). clear - EZ H2 S1 HT HF Hs. unfold ns in *. clearbody ns. clear ns. revert ys EZ. generalize dependent (split_rows (repeat n (length l)) b).
    induction l as [|t l IH]; intros qs S1 ys EZ; [cbn in EZ; inversion EZ; reflexivity|]. destruct qs as [|q qs]; [discriminate|]. cbn in S1, EZ, H2.
    injection S1 as Sa Sb. inversion EZ as [|? y ? ys' EZ1 EZ2]; subst ys. inversion H2; subst. apply Forall_cons_iff in HT, HF. destruct HT as [HT1 HT], HF as [HF1 HF].
    cbn in EZ1. cbn [map zipM]. rewrite (proj1 (C02_flat t (alen q) HT1 HF1 s idx Hs) y q eq_refl EZ1). cbn [bind].
    change ((fix go (l : list tf) (qs : list arr) {struct l} : res (list arr) := match l with | [] => Ok [] | t :: l' => match qs with [] => Ok [] | q :: qs' => do y <- inverse_transform t (Some s) q; do ys <- go l' qs'; Ok (y :: ys) end end) l (map (asel idx) qs)) with (zipM (fun t => inverse_transform t (Some s)) l (map (asel idx) qs)).
    rewrite (IH HT HF) with (ys := ys'); auto. }
  rewrite EW. cbn [bind]. destruct ys as [|y ys]; [cbn in Hyl; destruct ns; [congruence|discriminate]|].
  unfold aconcat in E. destruct y as [v|m].
  - destruct (allsome (map a_isV (V v :: ys))) as [vs|] eqn:E5; [|discriminate]. apply allsome_V in E5. rewrite E5.
    exists (V (concat (map (fun v => take_at 0%R v idx) vs))).
    replace (map (asel idx) (map V vs)) with (map V (map (fun v => take_at 0%R v idx) vs)) by (rewrite !map_map; reflexivity).
    rewrite aconcat_V by (destruct vs; discriminate). auto.
  - destruct (allsome (map a_isM (M m :: ys))) as [vs|] eqn:E5; [|discriminate]. apply allsome_M in E5. rewrite E5.
    exists (M (concat (map (fun v => take_at [] v idx) vs))).
    replace (map (asel idx) (map M vs)) with (map M (map (fun v => take_at [] v idx) vs)) by (rewrite !map_map; reflexivity).
    rewrite aconcat_M by (destruct vs; discriminate). auto. Qed.
Lemma C02_multi_sizes l ns s b : Forall2 trained ns l -> (exists x y, In x ns /\ In y ns /\ x <> y) -> inverse_transform (TMulti l) (Some s) b = Err ValueError.
Proof. intros H [x [y [Hx [Hy Hxy]]]]. cbn [inverse_transform]. unfold multi_split_locs. rewrite (variable_sizes_trained ns l H).
  destruct (all_same ns) eqn:E; [|reflexivity]. exfalso. apply Hxy. apply (proj1 (all_same_iff ns) E); auto. Qed.

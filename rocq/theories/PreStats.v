(* PreStats.v -- the statistics of fitted training data (C03), shift() and scale() (C07). *)
From Coq Require Import ZArith.
From Verif Require Export PreFit.
#[local] Open Scope nat_scope.

(* ---- statistics of one list of numbers ---------------------------------------------------------------------- *)
Lemma fold_min v : forall x, is_min (fold_left Rmin v x) (x :: v).
Proof. induction v as [|y v IH]; intros x; cbn [fold_left].
  - split; [left; auto|]. intros z [ -> |[]]. lra.
  - destruct (IH (Rmin x y)) as [H1 H2]. split.
    + destruct H1 as [H1|H1]; [|right; right; auto]. rewrite <- H1. unfold Rmin. destruct (Rle_dec x y); [left|right; left]; auto.
    + assert (H0 := H2 _ (or_introl eq_refl)). intros z [ -> |[ -> |Hz]].
      * eapply Rle_trans; [exact H0|apply Rmin_l]. * eapply Rle_trans; [exact H0|apply Rmin_r]. * apply H2. right; auto. Qed.
Lemma fold_max v : forall x, is_max (fold_left Rmax v x) (x :: v).
Proof. induction v as [|y v IH]; intros x; cbn [fold_left].
  - split; [left; auto|]. intros z [ -> |[]]. lra.
  - destruct (IH (Rmax x y)) as [H1 H2]. split.
    + destruct H1 as [H1|H1]; [|right; right; auto]. rewrite <- H1. unfold Rmax. destruct (Rle_dec x y); [right; left|left]; auto.
    + assert (H0 := H2 _ (or_introl eq_refl)). intros z [ -> |[ -> |Hz]].
      * eapply Rle_trans; [apply Rmax_l|exact H0]. * eapply Rle_trans; [apply Rmax_r|exact H0]. * apply H2. right; auto. Qed.
Lemma vmin_ok v m : vmin v = Ok m -> is_min m v.
Proof. destruct v; [discriminate|]. intros H. injection H as <-. apply fold_min. Qed.
Lemma vmax_ok v m : vmax v = Ok m -> is_max m v.
Proof. destruct v; [discriminate|]. intros H. injection H as <-. apply fold_max. Qed.
Lemma vmin_total v : v <> [] -> exists m, vmin v = Ok m. Proof. destruct v; [congruence|cbn; eauto]. Qed.
Lemma vmax_total v : v <> [] -> exists m, vmax v = Ok m. Proof. destruct v; [congruence|cbn; eauto]. Qed.
Lemma mean_nz_total v : v <> [] -> mean_nz v = Ok (vmean v). Proof. destruct v; [congruence|reflexivity]. Qed.
Lemma mean_nz_ok v m : mean_nz v = Ok m -> v <> [] /\ mean_is m v.
Proof. destruct v as [|x v]; [discriminate|]. intros H. injection H as <-. split; [discriminate|]. unfold mean_is, vmean.
  assert (INR (length (x :: v)) <> 0%R) by (apply not_0_INR; cbn; lia). field. auto. Qed.
Lemma lsum_aff a b v : lsum (map (fun y => y * a + b)%R v) = (lsum v * a + INR (length v) * b)%R.
Proof. induction v as [|y v IH]; [cbn; unfold lsum; cbn; lra|]. cbn [map]. rewrite !lsum_cons, IH. cbn [length]. rewrite S_INR. lra. Qed.
Lemma mean_aff a b v m : mean_is m v -> mean_is (m * a + b) (map (fun y => y * a + b)%R v).
Proof. unfold mean_is. intros H. rewrite lsum_aff, map_length, H. lra. Qed.
Lemma mean_unique v m m' : v <> [] -> mean_is m v -> mean_is m' v -> m = m'.
Proof. unfold mean_is. intros Hv H1 H2. rewrite H1 in H2. assert (INR (length v) <> 0%R) by (apply not_0_INR; destruct v; [congruence|cbn; lia]).
  apply Rmult_eq_reg_l in H2; auto. Qed.
Lemma vstd_ok v m s : mean_nz v = Ok m -> vstd v = Ok s -> (0 <= s)%R /\ std_is s m v.
Proof. intros Hm. unfold vstd. rewrite Hm. cbn [bind]. intros H. injection H as <-. destruct (mean_nz_ok v m Hm) as [Hv _].
  assert (HN : (0 < INR (length v))%R) by (apply lt_0_INR; destruct v; [congruence|cbn; lia]).
  assert (HP : (0 <= vmean (map (fun x => (x - m) * (x - m)) v))%R).
  { unfold vmean. rewrite map_length. apply Rmult_le_pos; [|left; apply Rinv_0_lt_compat; auto]. apply lsum_nonneg.
    intros x Hx. apply in_map_iff in Hx. destruct Hx as [y [<- _]]. apply Rle_0_sqr. }
  split; [apply sqrt_pos|]. unfold std_is. rewrite sqrt_def by auto. unfold vmean. rewrite map_length. field. apply Rgt_not_eq. auto. Qed.
Lemma std_aff v s m a : std_is s m v -> std_is (s * a) 0 (map (fun y => y * a + - m * a)%R v).
Proof. unfold std_is. intros H. rewrite map_map, map_length.
  replace (map _ v) with (map (fun y => y * (a * a) + 0)%R (map (fun x => (x - m) * (x - m))%R v)) by (rewrite map_map; apply map_ext; intros; ring).
  rewrite lsum_aff, H, map_length. ring. Qed.
Lemma min_aff v m a b : (0 < a)%R -> is_min m v -> is_min (m * a + b) (map (fun y => y * a + b)%R v).
Proof. intros Ha [H1 H2]. split; [apply in_map_iff; eauto|]. intros x Hx. apply in_map_iff in Hx. destruct Hx as [y [<- Hy]]. apply H2 in Hy. nra. Qed.
Lemma max_aff v m a b : (0 < a)%R -> is_max m v -> is_max (m * a + b) (map (fun y => y * a + b)%R v).
Proof. intros Ha [H1 H2]. split; [apply in_map_iff; eauto|]. intros x Hx. apply in_map_iff in Hx. destruct Hx as [y [<- Hy]]. apply H2 in Hy. nra. Qed.
Lemma maxabs_scaled v m a : (0 < a)%R -> is_max m (map Rabs v) -> is_max (m * a) (map Rabs (map (fun y => y * a)%R v)).
Proof. intros Ha H. replace (map Rabs (map (fun y => (y * a)%R) v)) with (map (fun y => y * a + 0)%R (map Rabs v)).
  - replace (m * a)%R with (m * a + 0)%R by ring. apply max_aff; auto.
  - rewrite !map_map. apply map_ext. intros y. rewrite Rabs_mult, (Rabs_pos_eq a) by lra. ring. Qed.
Lemma inv_pos x : (0 <= x)%R -> x <> 0%R -> (0 < 1 / x)%R.
Proof. intros. apply Rdiv_lt_0_compat; lra. Qed.

(* ---- coefficients and groups ----------------------------------------------------------------------------------- *)
Definition cget (c : coef) (i : nat) : R := match c with Sc x => x | Vc v => vget v i end.
Definition ng (byrow : bool) (n : nat) : nat := if byrow then n else 1.
Definition grp (byrow : bool) (Y : mat) (i : nat) : vec := nth i (groups byrow Y) [].
Lemma groups_length byrow Y : length (groups byrow Y) = ng byrow (length Y). Proof. destruct byrow; reflexivity. Qed.
Lemma in_groups byrow Y v : In v (groups byrow Y) <-> exists i, i < ng byrow (length Y) /\ v = grp byrow Y i.
Proof. rewrite <- groups_length. split.
  - intros H. apply (In_nth _ _ []) in H. destruct H as [i [H1 H2]]. exists i. auto.
  - intros [i [H1 ->]]. apply nth_In. auto. Qed.
Lemma mapM_nth {A B} (f : A -> res B) l l' da db : mapM f l = Ok l' -> forall i, i < length l -> f (nth i l da) = Ok (nth i l' db).
Proof. revert l'; induction l as [|a l IH]; intros l' H i Hi; [cbn in Hi; lia|]. cbn in H. destruct (f a) eqn:E; [|discriminate].
  destruct (mapM f l) eqn:E'; [|discriminate]. injection H as <-. destruct i; cbn; auto. apply IH; auto. cbn in Hi. lia. Qed.
Lemma mapM_total {A B} (f : A -> res B) l : (forall x, In x l -> exists y, f x = Ok y) -> exists l', mapM f l = Ok l'.
Proof. induction l as [|a l IH]; intros H; [cbn; eauto|]. destruct (H a (or_introl eq_refl)) as [y Hy]. destruct IH as [l' Hl']; [intros; apply H; right; auto|].
  cbn. rewrite Hy, Hl'. eauto. Qed.
Lemma stat_get f byrow Y c : stat f byrow Y = Ok c -> forall i, i < ng byrow (length Y) -> f (grp byrow Y i) = Ok (cget c i).
Proof. unfold stat, grp, groups, ng. destruct byrow; intros H i Hi.
  - bindH H. injection H as <-. cbn. unfold vget. eapply mapM_nth; eauto.
  - bindH H. injection H as <-. replace i with 0 by lia. cbn. auto. Qed.
Lemma stat_total f byrow Y : (forall v, In v (groups byrow Y) -> exists x, f v = Ok x) -> exists c, stat f byrow Y = Ok c.
Proof. unfold stat, groups. destruct byrow; intros H.
  - destruct (mapM_total f Y H) as [l E]. rewrite E. cbn. eauto.
  - destruct (H _ (or_introl eq_refl)) as [x E]. rewrite E. cbn. eauto. Qed.
Lemma cmap_get byrow n f c i : shaped byrow n c -> i < ng byrow n -> cget (cmap f c) i = f (cget c i).
Proof. unfold shaped, ng. destruct byrow; [intros [v [-> Hv]] Hi|intros [x ->] _; reflexivity]. cbn. unfold vget. apply nth_map_in. lia. Qed.
Lemma cmap2_get byrow n f c d e i : shaped byrow n c -> shaped byrow n d -> cmap2 f c d = Ok e -> i < ng byrow n -> cget e i = f (cget c i) (cget d i).
Proof. unfold shaped, ng. destruct byrow.
  - intros [u [-> Hu]] [v [-> Hv]] H Hi. cbn in H. rewrite Hu, Hv, Nat.eqb_refl in H. injection H as <-. cbn. unfold vget. apply map2_nth; lia.
  - intros [x ->] [y ->] H _. cbn in H. injection H as <-. reflexivity. Qed.
Lemma cmap2_total byrow n f c d : shaped byrow n c -> shaped byrow n d -> exists e, cmap2 f c d = Ok e.
Proof. unfold shaped. destruct byrow.
  - intros [u [-> Hu]] [v [-> Hv]]. cbn. rewrite Hu, Hv, Nat.eqb_refl. eauto.
  - intros [x ->] [y ->]. cbn. eauto. Qed.
Lemma nzc_get byrow n c : shaped byrow n c -> (nzc c <-> forall i, i < ng byrow n -> cget c i <> 0%R).
Proof. unfold shaped, ng. destruct byrow.
  - intros [v [-> Hv]]. cbn. rewrite Forall_forall. split.
    + intros H i Hi. apply H. apply nth_In. lia.
    + intros H x Hx. apply (In_nth _ _ 0%R) in Hx. destruct Hx as [i [Hi <-]]. apply H. lia.
  - intros [x ->]. cbn. split; auto. intros H. apply (H 0). lia. Qed.
Lemma cover_get byrow n x c d i : shaped byrow n c -> cover x c = Ok d -> i < ng byrow n -> cget c i <> 0%R /\ cget d i = (x / cget c i)%R.
Proof. unfold cover. destruct (coef_nz c) eqn:E; [|discriminate]. intros Hs H Hi. injection H as <-. apply coef_nz_iff in E.
  split; [apply (nzc_get byrow n); auto|]. apply (cmap_get byrow n); auto. Qed.
Lemma cover_total byrow n x c : shaped byrow n c -> (forall i, i < ng byrow n -> cget c i <> 0%R) -> exists d, cover x c = Ok d.
Proof. intros Hs H. unfold cover. assert (E : coef_nz c = true) by (apply coef_nz_iff, (nzc_get byrow n); auto). rewrite E. eauto. Qed.
Lemma map_concat {A B} (f : A -> B) ls : map f (concat ls) = concat (map (map f) ls).
Proof. induction ls as [|l ls IH]; auto. cbn. rewrite map_app, IH. auto. Qed.
(* an in-place statement changes every group by its own number *)
Definition copm (o : aop) (c : coef) (Y : mat) : mat := arr_mat (cop o c (M Y)).
Lemma cop_M o c Y : cop o c (M Y) = M (copm o c Y). Proof. destruct c; reflexivity. Qed.
Lemma copm_length o c Y : okc (length Y) c -> length (copm o c Y) = length Y.
Proof. intros H. assert (E := cop_alen o c (M Y) H). rewrite cop_M in E. exact E. Qed.
Lemma cop_grp byrow o c Y i : shaped byrow (length Y) c -> i < ng byrow (length Y) ->
  grp byrow (copm o c Y) i = map (fun y => aop_fun o y (cget c i)) (grp byrow Y i).
Proof. unfold shaped, ng, grp, groups, copm. destruct byrow.
  - intros [v [-> Hv]] Hi. cbn. unfold vget. rewrite (map2_nth _ Y v i [] 0%R []) by lia. reflexivity.
  - intros [x ->] Hi. replace i with 0 by lia. cbn. rewrite map_concat. reflexivity. Qed.
Lemma abs_grp byrow Y i : i < ng byrow (length Y) -> grp byrow (map (map Rabs) Y) i = map Rabs (grp byrow Y i).
Proof. unfold ng, grp, groups. destruct byrow; intros Hi.
  - apply (nth_map_in (map Rabs)). auto.
  - replace i with 0 by lia. cbn. rewrite map_concat. reflexivity. Qed.
(* the scaled array, group by group *)
Definition affm (al be : coef) (Y : mat) : mat := copm IAdd be (copm IMul al Y).
Lemma affm_exec al be Y : okc (length Y) al -> okc (length Y) be -> exec [Stmt IMul al; Stmt IAdd be] (M Y) = Ok (M (affm al be Y)).
Proof. intros Ha Hb. unfold exec. cbn [chain]. rewrite exec1_ok by (auto; discriminate). cbn [bind]. rewrite cop_M.
  rewrite exec1_ok by (try discriminate; cbn [alen]; rewrite copm_length; auto). cbn [bind]. rewrite cop_M. reflexivity. Qed.
Lemma affm_length al be Y : okc (length Y) al -> okc (length Y) be -> length (affm al be Y) = length Y.
Proof. intros Ha Hb. unfold affm. rewrite !copm_length; auto. rewrite copm_length; auto. Qed.
Lemma affm_grp byrow al be Y i : shaped byrow (length Y) al -> shaped byrow (length Y) be -> i < ng byrow (length Y) ->
  grp byrow (affm al be Y) i = map (fun y => y * cget al i + cget be i)%R (grp byrow Y i).
Proof. intros Ha Hb Hi. unfold affm. assert (L := copm_length IMul al Y (shaped_okc _ _ _ Ha)). rewrite cop_grp by (rewrite L; auto).
  rewrite cop_grp by auto. rewrite map_map. reflexivity. Qed.
Lemma affm_groups byrow al be Y (P : vec -> Prop) : shaped byrow (length Y) al -> shaped byrow (length Y) be ->
  (forall i, i < ng byrow (length Y) -> P (map (fun y : R => y * cget al i + cget be i)%R (grp byrow Y i))) ->
  forall v, In v (groups byrow (affm al be Y)) -> P v.
Proof. intros Ha Hb H v Hv. apply in_groups in Hv. destruct Hv as [i [Hi ->]].
  rewrite affm_length in Hi by (eapply shaped_okc; eauto). rewrite affm_grp; auto. Qed.
Lemma zero_shaped (byrow : bool) n : shaped byrow n (if byrow then Vc (vzeros n) else Sc 0).
Proof. unfold shaped. destruct byrow; eauto. eexists. split; [reflexivity|apply repeat_length]. Qed.
Lemma zero_get (byrow : bool) n i : cget (if byrow then Vc (vzeros n) else Sc 0) i = 0%R.
Proof. destruct byrow; cbn; auto. unfold vget, vzeros. apply nth_repeat. Qed.
Lemma maxabs_pos v m : is_max m (map Rabs v) -> (0 <= m)%R.
Proof. intros [H _]. apply in_map_iff in H. destruct H as [y [<- _]]. apply Rabs_pos. Qed.
Definition isnorm (sc : scaling) : bool := match sc with Maxnorm | Maxnormsym => true | _ => false end.
Lemma learn_documented sc byrow Y al be p n k : isnorm sc = false -> ss_learn sc byrow Y = Ok (al, be, p) -> documented sc byrow n k (affm al be Y).
Proof. intros Hn H. assert (HS := ss_learn_shaped _ _ _ _ _ _ H). destruct HS as [S1 [_ [S3 _]]].
  destruct sc; try discriminate Hn; cbn [ss_learn documented] in *; apply affm_groups; auto; intros i Hi.
  - do 4 bindH H. injection H as -> -> <-. assert (G := stat_get _ _ _ _ E i Hi). assert (G0 := stat_get _ _ _ _ E0 i Hi).
    apply stat_shaped in E, E0. destruct (cover_get _ _ _ _ _ _ E0 E1 Hi) as [N1 N2].
    rewrite (cmap2_get _ _ _ _ _ _ i (cmap_shaped _ _ Ropp _ E) S1 E2 Hi), (cmap_get _ _ _ _ _ E Hi).
    destruct (mean_nz_ok _ _ G) as [_ M1]. destruct (vstd_ok _ _ _ G G0) as [V1 V2]. set (m := cget a i) in *. set (s := cget a0 i) in *. rewrite N2. split.
    + replace 0%R with (m * (1 / s) + - m * (1 / s))%R by ring. apply mean_aff; auto.
    + replace 1%R with (s * (1 / s))%R at 1 by (field; auto). apply std_aff; auto.
  - do 5 bindH H. injection H as -> -> <-. assert (G := stat_get _ _ _ _ E i Hi). assert (G0 := stat_get _ _ _ _ E0 i Hi).
    apply stat_shaped in E, E0. assert (C1 := cmap2_get _ _ _ _ _ _ i E0 E E1 Hi). assert (S0 := cmap2_shaped _ _ _ _ _ _ E0 E E1).
    destruct (cover_get _ _ _ _ _ _ S0 E2 Hi) as [N1 N2].
    rewrite (cmap2_get _ _ _ _ _ _ i (cmap_shaped _ _ Ropp _ E) S1 E3 Hi), (cmap_get _ _ _ _ _ E Hi).
    apply vmin_ok in G. apply vmax_ok in G0. rewrite N2, C1. rewrite C1 in N1. set (lo := cget a i) in *. set (hi := cget a0 i) in *.
    assert (Hlh : (0 < 1 / (hi - lo))%R) by (apply inv_pos; auto; destruct G as [Gi _]; apply G0 in Gi; lra). split.
    + replace 0%R with (lo * (1 / (hi - lo)) + - lo * (1 / (hi - lo)))%R by ring. apply min_aff; auto.
    + replace 1%R with (hi * (1 / (hi - lo)) + - lo * (1 / (hi - lo)))%R at 1 by (field; auto). apply max_aff; auto.
  - do 5 bindH H. injection H as -> <- <-. assert (G := stat_get _ _ _ _ E i Hi). assert (G0 := stat_get _ _ _ _ E0 i Hi).
    apply stat_shaped in E, E0. assert (C1 := cmap2_get _ _ _ _ _ _ i E0 E E1 Hi). assert (S0 := cmap2_shaped _ _ _ _ _ _ E0 E E1).
    destruct (cover_get _ _ _ _ _ _ S0 E2 Hi) as [N1 N2]. assert (S4 := cmap2_shaped _ _ _ _ _ _ (cmap_shaped _ _ Ropp _ E) S1 E3).
    rewrite (cmap_get _ _ _ _ _ S4 Hi). rewrite (cmap2_get _ _ _ _ _ _ i (cmap_shaped _ _ Ropp _ E) S1 E3 Hi), (cmap_get _ _ _ _ _ E Hi).
    apply vmin_ok in G. apply vmax_ok in G0. rewrite N2, C1. rewrite C1 in N1. set (lo := cget a i) in *. set (hi := cget a0 i) in *.
    assert (Hlh : (0 < 2 / (hi - lo))%R) by (apply Rdiv_lt_0_compat; [lra|]; destruct G as [Gi _]; apply G0 in Gi; lra). split.
    + replace (-1)%R with (lo * (2 / (hi - lo)) + (- lo * (2 / (hi - lo)) - 1))%R by ring. apply min_aff; auto.
    + replace 1%R with (hi * (2 / (hi - lo)) + (- lo * (2 / (hi - lo)) - 1))%R at 1 by (field; auto). apply max_aff; auto.
  - do 2 bindH H. injection H as -> <- <-. rewrite zero_get. assert (L : length (map (map Rabs) Y) = length Y) by apply map_length.
    assert (G := stat_get _ _ _ _ E i ltac:(rewrite L; exact Hi)). rewrite abs_grp in G by auto. apply stat_shaped in E. rewrite L in E.
    destruct (cover_get _ _ _ _ _ _ E E0 Hi) as [N1 N2]. rewrite N2. apply vmax_ok in G. set (m := cget a i) in *.
    assert (Hm : (0 < 1 / m)%R) by (apply inv_pos; auto; eapply maxabs_pos; eauto).
    replace 1%R with (m * (1 / m))%R at 1 by (field; auto). rewrite (map_ext (fun y : R => y * (1 / m) + 0)%R (fun y => y * (1 / m))%R) by (intros; ring).
    apply maxabs_scaled; auto.
  - bindH H. assert (G0 := stat_get _ _ _ _ E i Hi). apply stat_shaped in E. bindH H.
    rewrite exec1_ok in E0 by (try discriminate; apply (shaped_okc byrow); exact E). injection E0 as <-. rewrite cop_M in H. cbn [arr_mat] in H.
    do 3 bindH H. injection H as -> -> <-. assert (L0 := copm_length ISub a Y (shaped_okc _ _ _ E)).
    assert (L : length (map (map Rabs) (copm ISub a Y)) = length Y) by (rewrite map_length; auto).
    assert (G := stat_get _ _ _ _ E0 i ltac:(rewrite L; exact Hi)). rewrite abs_grp in G by (rewrite L0; auto). rewrite cop_grp in G by auto.
    apply stat_shaped in E0. rewrite L in E0. destruct (cover_get _ _ _ _ _ _ E0 E1 Hi) as [N1 N2].
    rewrite (cmap2_get _ _ _ _ _ _ i (cmap_shaped _ _ Ropp _ E) S1 E2 Hi), (cmap_get _ _ _ _ _ E Hi). rewrite N2. apply vmax_ok in G. cbn [aop_fun] in G.
    set (m := cget a0 i) in *. set (mu := cget a i) in *. assert (Hm : (0 < 1 / m)%R) by (apply inv_pos; auto; eapply maxabs_pos; eauto).
    apply mean_nz_ok in G0. destruct G0 as [_ G0]. split.
    + replace 0%R with (mu * (1 / m) + - mu * (1 / m))%R by ring. apply mean_aff; auto.
    + replace 1%R with (m * (1 / m))%R at 1 by (field; auto).
      replace (map (fun y => (y * (1 / m) + - mu * (1 / m))%R) (grp byrow Y i)) with (map (fun y => (y * (1 / m))%R) (map (fun y => (y - mu)%R) (grp byrow Y i))).
      * apply maxabs_scaled; auto. * rewrite map_map. apply map_ext. intros; ring. Qed.

(* ---- column norms ---------------------------------------------------------------------------------------------- *)
Lemma mT_norms n k Y : is_mat n k Y -> 0 < n -> map (fun c => sqrt (vnorm2 c)) (mT Y) = colnorms n k Y.
Proof. intros HY Hn. unfold mT, colnorms. rewrite (ncols_is_mat n k Y HY Hn), map_map. apply map_ext. intros j.
  rewrite (vnorm2_bsum n); [|unfold is_vec; rewrite map_length; apply HY]. f_equal. apply bsum_ext. intros i Hi. unfold vget, mget.
  rewrite (nth_map_in (fun row => nth j row 0%R) Y i 0%R []) by (destruct HY as [-> _]; auto). reflexivity. Qed.
Lemma is_mat_shape n k Y Z : is_mat n k Y -> same_shape (M Y) (M Z) -> is_mat n k Z.
Proof. intros [H1 H2] H. cbn in H. split; [rewrite <- H1; symmetry; apply map_length_eq; auto|].
  rewrite Forall_forall in *. intros row Hr. apply (in_map (@length R)) in Hr. rewrite <- H in Hr. apply in_map_iff in Hr. destruct Hr as [row' [<- Hr]]. auto. Qed.
Lemma copm_shape o c Y : okc (length Y) c -> same_shape (M Y) (M (copm o c Y)).
Proof. intros H. rewrite <- cop_M. apply (cop_shape o c (M Y)). exact H. Qed.
Lemma affm_shape al be Y : okc (length Y) al -> okc (length Y) be -> same_shape (M Y) (M (affm al be Y)).
Proof. intros Ha Hb. eapply same_shape_trans; [apply (copm_shape IMul al Y Ha)|]. apply copm_shape. rewrite copm_length; auto. Qed.
Lemma copm_Sc_get n k o x Y i j : is_mat n k Y -> i < n -> j < k -> mget (copm o (Sc x) Y) i j = aop_fun o (mget Y i j) x.
Proof. intros [H1 H2] Hi Hj. unfold copm, mget. cbn. rewrite (nth_map_in (map (fun y => aop_fun o y x)) Y i [] []) by lia.
  rewrite (nth_map_in (fun y => aop_fun o y x) _ j 0%R 0%R); auto. rewrite Forall_forall in H2. rewrite (H2 (nth i Y [])); auto. apply nth_In. lia. Qed.
Lemma affm_Sc_get n k a b Y i j : is_mat n k Y -> i < n -> j < k -> mget (affm (Sc a) (Sc b) Y) i j = (mget Y i j * a + b)%R.
Proof. intros H Hi Hj. unfold affm. rewrite (copm_Sc_get n k), (copm_Sc_get n k); auto. eapply is_mat_shape; [exact H|apply copm_shape; exact I]. Qed.
Lemma bsum_pos_one n f i : i < n -> (forall j, j < n -> (0 <= f j)%R) -> (0 < f i)%R -> (0 < bsum n f)%R.
Proof. intros Hi H0 H1. destruct (bsum_nonneg n f H0) as [H|H]; auto. symmetry in H. assert (E := bsum_nonneg_0 n f H0 H i Hi). lra. Qed.
Lemma colnorms_scaled n k Y Z a m : (0 < a)%R -> (forall i j, i < n -> j < k -> mget Z i j = (mget Y i j * a)%R) ->
  is_max m (colnorms n k Y) -> is_max (m * a) (colnorms n k Z).
Proof. intros Ha H HM. replace (colnorms n k Z) with (map (fun y => y * a + 0)%R (colnorms n k Y)).
  - replace (m * a)%R with (m * a + 0)%R by ring. apply max_aff; auto.
  - unfold colnorms. rewrite map_map. apply map_ext_in. intros j Hj. apply in_seq in Hj.
    transitivity (sqrt (bsum n (fun i => mget Y i j * mget Y i j)%R * (a * a))).
    + rewrite sqrt_mult_alt; [rewrite sqrt_square by lra; ring|]. apply bsum_nonneg. intros. nra.
    + f_equal. rewrite <- bsum_scal_r. apply bsum_ext. intros i Hi. rewrite H by lia. ring. Qed.
Lemma colnorms_nonneg n k Y m : is_max m (colnorms n k Y) -> (0 <= m)%R.
Proof. intros [H _]. apply in_map_iff in H. destruct H as [j [<- _]]. apply sqrt_pos. Qed.
Lemma learn_documented_norm sc byrow Y al be p n k : isnorm sc = true -> is_mat n k Y -> ss_learn sc byrow Y = Ok (al, be, p) ->
  documented sc byrow n k (affm al be Y).
Proof. intros Hs HY H. assert (HS := ss_learn_shaped _ _ _ _ _ _ H). destruct HS as [S1 [_ [S3 _]]].
  destruct sc; try discriminate Hs; cbn [ss_learn documented] in *; (destruct byrow; [discriminate H|]).
  - do 2 bindH H. injection H as -> <- <-. assert (Hn : 0 < n).
    { destruct n; [|lia]. destruct HY as [HY _]. destruct Y; [discriminate E|discriminate HY]. }
    rewrite (mT_norms n k) in E by auto. apply vmax_ok in E. destruct (cover_get false 1 _ (Sc a) _ 0 ltac:(cbn; eauto) E0 ltac:(cbn; lia)) as [N1 N2].
    destruct S1 as [x ->]. cbn in N1, N2. subst x. replace 1%R with (a * (1 / a))%R at 1 by (field; auto). apply (colnorms_scaled n k Y); auto.
    + apply inv_pos; auto. eapply colnorms_nonneg; eauto.
    + intros i j Hi Hj. rewrite (affm_Sc_get n k); auto. ring.
  - do 4 bindH H. injection H as -> -> <-. change (map (map (fun y => (y - a)%R)) Y) with (copm ISub (Sc a) Y) in E0.
    assert (HY' : is_mat n k (copm ISub (Sc a) Y)) by (eapply is_mat_shape; [exact HY|apply copm_shape; exact I]).
    assert (Hn : 0 < n). { destruct n; [|lia]. destruct HY as [HY _]. destruct Y; [discriminate E|discriminate HY]. }
    rewrite (mT_norms n k) in E0 by auto. apply vmax_ok in E0. destruct (cover_get false 1 _ (Sc a0) _ 0 ltac:(cbn; eauto) E1 ltac:(cbn; lia)) as [N1 N2].
    destruct S1 as [x ->], S3 as [y ->]. cbn in N1, N2, E2. subst x. injection E2 as <-. split.
    + assert (G := affm_grp false (Sc (1 / a0)) (Sc (- a * (1 / a0))) Y 0 ltac:(cbn; eauto) ltac:(cbn; eauto) ltac:(cbn; lia)).
      unfold grp, groups in G. cbn [nth cget] in G. rewrite G. apply mean_nz_ok in E. destruct E as [_ E].
      replace 0%R with (a * (1 / a0) + - a * (1 / a0))%R by ring. apply mean_aff; auto.
    + replace 1%R with (a0 * (1 / a0))%R at 1 by (field; auto). apply (colnorms_scaled n k (copm ISub (Sc a) Y)); auto.
      * apply inv_pos; auto. eapply colnorms_nonneg; eauto.
      * intros i j Hi Hj. rewrite (affm_Sc_get n k), (copm_Sc_get n k); auto. cbn. ring. Qed.

(* ---- fit_transform of a ShiftScaleTransformer -------------------------------------------------------------------- *)
Lemma learn_exec sc byrow Y al be p : ss_learn sc byrow Y = Ok (al, be, p) -> exec (p ++ [Stmt IMul al; Stmt IAdd be]) (M Y) = Ok (M (affm al be Y)).
Proof. intros H. apply ss_learn_shaped in H. destruct H as [S1 [_ [S3 S4]]]. rewrite exec_app, (exec_idp _ _ _ (M Y) S4 eq_refl). cbn [bind].
  apply affm_exec; eapply shaped_okc; eauto. Qed.
Lemma ss_fit_value s Y s' b : fit_transform (TSS s) (M Y) = Ok (TSS s', b) -> exists Y1,
  (if ss_cent s then exists mu, mapM mean_nz Y = Ok mu /\ Y1 = copm ISub (Vc mu) Y else Y1 = Y) /\
  match ss_scaling s with None => b = M Y1 | Some sc => exists al be p, ss_learn sc (ss_byrow s) Y1 = Ok (al, be, p) /\ b = M (affm al be Y1) end.
Proof. unfold fit_transform. cbn [fit_from fit_prog ss_fit]. intros H. bindH H. destruct a as [t p]. bindH E. destruct a as [s1 p1]. injection E as <- <-.
  bindH E0. destruct a as [mean q]. bindH E0. rename a into A. bindH H. injection H as <- <-. rename a into b. bindH E0. destruct a as [[al be] p3]. injection E0 as <- <-.
  assert (HA : exists Y1, A = M Y1 /\ (if ss_cent s then exists mu, mapM mean_nz Y = Ok mu /\ Y1 = copm ISub (Vc mu) Y else Y1 = Y)).
  { destruct (ss_cent s).
    - bindH E. injection E as <- <-. assert (L := mapM_length _ _ _ E0). rewrite exec_one, exec1_ok in E1 by (try discriminate; symmetry; exact L). injection E1 as <-.
      exists (copm ISub (Vc a) Y). split; [reflexivity|]. eauto.
    - injection E as <- <-. injection E1 as <-. eauto. }
  destruct HA as [Y1 [-> HA]]. exists Y1. split; auto. rewrite exec_app, E1 in E2. cbn [bind arr_mat] in *. destruct (ss_scaling s).
  - bindH E3. destruct a as [[al' be'] p2]. injection E3 as <- <- <-. exists al', be', p2. split; auto. rewrite (learn_exec _ _ _ _ _ _ E0) in E2. congruence.
  - injection E3 as <- <- <-. cbn in E2. congruence. Qed.
Lemma ss_fit_TSS s a t' b : fit_transform (TSS s) a = Ok (t', b) -> exists s', t' = TSS s'.
Proof. unfold fit_transform. cbn [fit_from fit_prog]. intros H. bindH H. destruct a0 as [t p]. bindH E. destruct a0 as [s' p']. injection E as <- <-. bindH H.
  injection H as <- <-. eauto. Qed.
Lemma centered_shape n k mu Y : is_mat n k Y -> mapM mean_nz Y = Ok mu -> is_mat n k (copm ISub (Vc mu) Y).
Proof. intros HY H. apply mapM_length in H. eapply is_mat_shape; [exact HY|]. apply copm_shape. symmetry. exact H. Qed.
Lemma C03_documented s sc n k Y t' b : ss_scaling s = Some sc -> is_mat n k Y -> fit_transform (TSS s) (M Y) = Ok (t', b) ->
  exists B, b = M B /\ is_mat n k B /\ documented sc (ss_byrow s) n k B.
Proof. intros Hs HY H. destruct (ss_fit_TSS _ _ _ _ H) as [s' ->]. destruct (ss_fit_value _ _ _ _ H) as [Y1 [H1 H2]]. rewrite Hs in H2.
  destruct H2 as [al [be [p [H2 ->]]]]. exists (affm al be Y1). split; auto.
  assert (HY1 : is_mat n k Y1). { destruct (ss_cent s); [destruct H1 as [mu [Hmu ->]]; apply centered_shape; auto|subst; auto]. }
  assert (HS := ss_learn_shaped _ _ _ _ _ _ H2). destruct HS as [S1 [_ [S3 _]]]. split.
  - eapply is_mat_shape; [exact HY1|]. apply affm_shape; eapply shaped_okc; eauto.
  - destruct (isnorm sc) eqn:E; [eapply learn_documented_norm; eauto|eapply learn_documented; eauto]. Qed.
(* row means *)
Lemma mean0 v : mean_is 0 v <-> lsum v = 0%R. Proof. unfold mean_is. rewrite Rmult_0_r. tauto. Qed.
Lemma centered_rows Y mu : mapM mean_nz Y = Ok mu -> forall row, In row (copm ISub (Vc mu) Y) -> mean_is 0 row.
Proof. intros H row Hr. assert (L := mapM_length _ _ _ H). assert (S1 : shaped true (length Y) (Vc mu)) by (cbn; eauto).
  change (copm ISub (Vc mu) Y) with (groups true (copm ISub (Vc mu) Y)) in Hr. apply in_groups in Hr. destruct Hr as [i [Hi ->]].
  rewrite copm_length in Hi by (symmetry; exact L). rewrite cop_grp by auto. cbn [ng] in Hi.
  destruct (mean_nz_ok _ _ (mapM_nth _ _ _ [] 0%R H i Hi)) as [_ HM]. change (nth i Y []) with (grp true Y i) in HM. cbn [cget aop_fun]. unfold vget in *.
  set (m := nth i mu 0%R) in *. replace 0%R with (m * 1 + - m)%R by ring. rewrite (map_ext (fun y : R => y - m)%R (fun y => y * 1 + - m)%R) by (intros; ring).
  apply mean_aff; auto. Qed.
Lemma lsum_concat0 Y : (forall row, In row Y -> lsum row = 0%R) -> lsum (concat Y) = 0%R.
Proof. induction Y as [|r Y IH]; intros H; [reflexivity|]. cbn [concat]. rewrite lsum_app, (H r) by (left; auto). rewrite IH; [lra|]. intros; apply H; right; auto. Qed.
Lemma grp_mean0 byrow Y i m : (forall row, In row Y -> mean_is 0 row) -> i < ng byrow (length Y) -> mean_nz (grp byrow Y i) = Ok m -> m = 0%R.
Proof. intros H Hi Hm. apply mean_nz_ok in Hm. destruct Hm as [Hv Hm]. apply (mean_unique (grp byrow Y i)); auto.
  unfold grp, groups, ng in *. destruct byrow; [apply H; apply nth_In; auto|]. replace i with 0 by lia. cbn. apply mean0. apply lsum_concat0. intros. apply mean0. auto. Qed.
Lemma learn_be0 sc byrow Y al be p : keeps_means (Some sc) -> (forall row, In row Y -> mean_is 0 row) -> ss_learn sc byrow Y = Ok (al, be, p) ->
  forall i, i < ng byrow (length Y) -> cget be i = 0%R.
Proof. intros Hk HM H i Hi. assert (HS := ss_learn_shaped _ _ _ _ _ _ H). destruct HS as [S1 [_ [S3 _]]].
  destruct sc; try (destruct Hk; fail); cbn [ss_learn] in H.
  - do 4 bindH H. injection H as -> -> <-. assert (G := stat_get _ _ _ _ E i Hi). apply stat_shaped in E. apply grp_mean0 in G; auto.
    rewrite (cmap2_get _ _ _ _ _ _ i (cmap_shaped _ _ Ropp _ E) S1 E2 Hi), (cmap_get _ _ _ _ _ E Hi), G. ring.
  - do 2 bindH H. injection H as -> <- <-. apply zero_get.
  - bindH H. assert (G := stat_get _ _ _ _ E i Hi). apply stat_shaped in E. apply grp_mean0 in G; auto. do 4 bindH H. injection H as -> -> <-.
    rewrite (cmap2_get _ _ _ _ _ _ i (cmap_shaped _ _ Ropp _ E) S1 E3 Hi), (cmap_get _ _ _ _ _ E Hi), G. ring.
  - destruct byrow; [discriminate H|]. do 2 bindH H. injection H as -> <- <-. reflexivity.
  - destruct byrow; [discriminate H|]. do 4 bindH H. injection H as -> -> <-. assert (G := grp_mean0 false Y 0 a HM ltac:(cbn; lia) E).
    destruct S1 as [x ->]. cbn in E2. injection E2 as <-. cbn. rewrite G. ring. Qed.
Lemma affm_rows byrow al be Y i : shaped byrow (length Y) al -> shaped byrow (length Y) be -> i < length Y ->
  nth i (affm al be Y) [] = map (fun y => y * cget al i + cget be i)%R (nth i Y []).
Proof. intros Ha Hb Hi. destruct byrow; [apply (affm_grp true); auto|]. destruct Ha as [x ->], Hb as [y ->]. unfold affm, copm. cbn.
  rewrite map_map. rewrite (nth_map_in _ Y i [] []) by auto. rewrite map_map. reflexivity. Qed.
Lemma C03_rows s Y t' b : ss_cent s = true -> keeps_means (ss_scaling s) -> fit_transform (TSS s) (M Y) = Ok (t', b) ->
  exists B, b = M B /\ forall row, In row B -> mean_is 0 row.
Proof. intros Hc Hk H. destruct (ss_fit_TSS _ _ _ _ H) as [s' ->]. destruct (ss_fit_value _ _ _ _ H) as [Y1 [H1 H2]]. rewrite Hc in H1. destruct H1 as [mu [Hmu ->]].
  assert (HM := centered_rows Y mu Hmu). set (Y1 := copm ISub (Vc mu) Y) in *. destruct (ss_scaling s) as [sc|].
  - destruct H2 as [al [be [p [H2 ->]]]]. eexists. split; [reflexivity|]. intros row Hr. apply (In_nth _ _ []) in Hr. destruct Hr as [i [Hi <-]].
    assert (HS := ss_learn_shaped _ _ _ _ _ _ H2). destruct HS as [S1 [_ [S3 _]]]. rewrite affm_length in Hi by (eapply shaped_okc; eauto).
    rewrite (affm_rows (ss_byrow s)) by auto. assert (B0 : cget be i = 0%R).
    { assert (F := learn_be0 _ _ _ _ _ _ Hk HM H2). destruct (ss_byrow s); [apply F; auto|]. destruct S3 as [y ->]. apply (F 0). cbn. lia. }
    rewrite B0. replace 0%R with (0 * cget al i + 0)%R at 1 by ring. apply mean_aff. apply HM. apply nth_In. auto.
  - exists Y1. auto. Qed.

(* ---- totality --------------------------------------------------------------------------------------------------- *)
Lemma std_nz v m s : varies v -> std_is s m v -> s <> 0%R.
Proof. intros [x [y [Hx [Hy Hxy]]]] H ->. unfold std_is in H. replace (INR (length v) * (0 * 0))%R with 0%R in H by ring.
  assert (F : forall z, In z v -> z = m).
  { revert H. clear. induction v as [|w v IH]; intros H z Hz; [destruct Hz|]. cbn [map] in H. rewrite lsum_cons in H.
    assert (P1 := Rle_0_sqr (w - m)). unfold Rsqr in P1. assert (P2 : (0 <= lsum (map (fun x => (x - m) * (x - m)) v))%R).
    { apply lsum_nonneg. intros u Hu. apply in_map_iff in Hu. destruct Hu as [q [<- _]]. apply Rle_0_sqr. }
    destruct Hz as [ <- |Hz]; [|apply IH; auto; lra]. assert (E : ((w - m) * (w - m) = 0)%R) by lra. apply Rmult_integral in E. destruct E; lra. }
  apply Hxy. rewrite (F x), (F y); auto. Qed.
Lemma varies_nonempty v : varies v -> v <> []. Proof. intros [x [_ [H _]]] ->. destruct H. Qed.
Lemma scal_varies sc byrow Y : scalable sc byrow Y -> sc <> Maxabs -> sc <> Maxnorm -> forall i, i < ng byrow (length Y) -> varies (grp byrow Y i).
Proof. intros H H1 H2 i Hi. assert (HI : In (grp byrow Y i) (groups byrow Y)) by (apply in_groups; eauto). destruct sc; try congruence; apply H; auto. Qed.
Lemma stat_tot f byrow Y : (forall i, i < ng byrow (length Y) -> exists x, f (grp byrow Y i) = Ok x) -> exists c, stat f byrow Y = Ok c.
Proof. intros H. apply stat_total. intros v Hv. apply in_groups in Hv. destruct Hv as [i [Hi ->]]. auto. Qed.
Lemma varies_off v c : varies v -> exists x, In x v /\ (x - c)%R <> 0%R.
Proof. intros [x [y [Hx [Hy H]]]]. destruct (Req_EM_T (x - c) 0) as [E|E]; [|eauto]. exists y. split; auto. intros E'. apply H. lra. Qed.
Lemma max_abs_nz v m : is_max m (map Rabs v) -> (exists x, In x v /\ x <> 0%R) -> m <> 0%R.
Proof. intros [_ H] [x [Hx Hnz]] ->. assert (Hb := H (Rabs x) (in_map _ _ _ Hx)). apply Rabs_pos_lt in Hnz. lra. Qed.
Lemma norm_nz n k Y m : is_mat n k Y -> is_max m (colnorms n k Y) -> (exists x, In x (concat Y) /\ x <> 0%R) -> m <> 0%R.
Proof. intros HY [_ H] [x [Hx Hnz]] ->. apply in_concat in Hx. destruct Hx as [row [Hr Hx]]. apply (In_nth _ _ []) in Hr. destruct Hr as [i [Hi <-]].
  apply (In_nth _ _ 0%R) in Hx. destruct Hx as [j [Hj <-]]. change (nth j (nth i Y []) 0%R) with (mget Y i j) in Hnz.
  destruct HY as [HY1 HY2]. rewrite HY1 in Hi. rewrite Forall_forall in HY2. rewrite (HY2 (nth i Y [])) in Hj by (apply nth_In; lia).
  assert (Hb := H (sqrt (bsum n (fun i => mget Y i j * mget Y i j)%R))).
  assert (HS : (0 < bsum n (fun i => mget Y i j * mget Y i j))%R).
  { apply bsum_pos_one with i; auto. - intros. apply Rle_0_sqr. - apply Rsqr_pos_lt; auto. }
  apply sqrt_lt_R0 in HS. assert ((sqrt (bsum n (fun i => mget Y i j * mget Y i j)) <= 0)%R); [|lra]. apply Hb.
  unfold colnorms. apply in_map_iff. exists j. split; auto. apply in_seq. lia. Qed.
Lemma concat_nonempty_dims n k Y : is_mat n k Y -> concat Y <> [] -> 0 < n /\ 0 < k.
Proof. intros [H1 H2] H. destruct Y as [|r Y]; [exfalso; apply H; reflexivity|]. cbn in H1. split; [lia|]. destruct k; [|lia]. exfalso. apply H.
  clear H H1. induction (r :: Y) as [|q Z IH]; auto. apply Forall_cons_iff in H2. destruct H2 as [Hq H2]. destruct q; [|discriminate]. cbn. auto. Qed.
Lemma colnorms_total n k Y : 0 < k -> exists m, vmax (colnorms n k Y) = Ok m.
Proof. intros H. apply vmax_total. unfold colnorms. destruct k; [lia|]. discriminate. Qed.
Lemma learn_total sc byrow n k Y : is_mat n k Y -> (byrow = true -> isnorm sc = false) -> scalable sc byrow Y -> exists r, ss_learn sc byrow Y = Ok r.
Proof. intros HY Hb HS. destruct sc; cbn [ss_learn].
  - assert (HV := scal_varies _ _ _ HS ltac:(discriminate) ltac:(discriminate)).
    destruct (stat_tot mean_nz byrow Y) as [mu E1]; [intros i Hi; eexists; apply mean_nz_total, varies_nonempty; auto|].
    destruct (stat_tot vstd byrow Y) as [sg E2]; [intros i Hi; unfold vstd; rewrite mean_nz_total by (apply varies_nonempty; auto); cbn; eauto|].
    assert (G1 := stat_get _ _ _ _ E1). assert (G2 := stat_get _ _ _ _ E2). rewrite E1, E2. cbn [bind]. apply stat_shaped in E1, E2.
    destruct (cover_total _ _ 1 _ E2) as [al E3]; [intros i Hi; destruct (vstd_ok _ _ _ (G1 i Hi) (G2 i Hi)); eapply std_nz; eauto|].
    rewrite E3. cbn [bind]. apply (cover_shaped _ _ _ _ _ E2) in E3; [|lra]. destruct E3 as [E3 _].
    destruct (cmap2_total _ _ Rmult _ _ (cmap_shaped _ _ Ropp _ E1) E3) as [be E4]. rewrite E4. cbn. eauto.
  - assert (HV := scal_varies _ _ _ HS ltac:(discriminate) ltac:(discriminate)).
    destruct (stat_tot vmin byrow Y) as [lo E1]; [intros i Hi; apply vmin_total, varies_nonempty; auto|].
    destruct (stat_tot vmax byrow Y) as [hi E2]; [intros i Hi; apply vmax_total, varies_nonempty; auto|].
    assert (G1 := stat_get _ _ _ _ E1). assert (G2 := stat_get _ _ _ _ E2). rewrite E1, E2. cbn [bind]. apply stat_shaped in E1, E2.
    destruct (cmap2_total _ _ Rminus _ _ E2 E1) as [d E3]. rewrite E3. cbn [bind]. assert (S3 := cmap2_shaped _ _ _ _ _ _ E2 E1 E3).
    destruct (cover_total _ _ 1 _ S3) as [al E4].
    { intros i Hi. rewrite (cmap2_get _ _ _ _ _ _ i E2 E1 E3 Hi). destruct (HV i Hi) as [x [y [Hx [Hy Hxy]]]].
      destruct (vmin_ok _ _ (G1 i Hi)) as [_ L]. destruct (vmax_ok _ _ (G2 i Hi)) as [_ U]. assert (L1 := L x Hx). assert (L2 := L y Hy).
      assert (U1 := U x Hx). assert (U2 := U y Hy). intros E. apply Hxy. lra. }
    rewrite E4. cbn [bind]. apply (cover_shaped _ _ _ _ _ S3) in E4; [|lra]. destruct E4 as [E4 _].
    destruct (cmap2_total _ _ Rmult _ _ (cmap_shaped _ _ Ropp _ E1) E4) as [be E5]. rewrite E5. cbn. eauto.
  - assert (HV := scal_varies _ _ _ HS ltac:(discriminate) ltac:(discriminate)).
    destruct (stat_tot vmin byrow Y) as [lo E1]; [intros i Hi; apply vmin_total, varies_nonempty; auto|].
    destruct (stat_tot vmax byrow Y) as [hi E2]; [intros i Hi; apply vmax_total, varies_nonempty; auto|].
    assert (G1 := stat_get _ _ _ _ E1). assert (G2 := stat_get _ _ _ _ E2). rewrite E1, E2. cbn [bind]. apply stat_shaped in E1, E2.
    destruct (cmap2_total _ _ Rminus _ _ E2 E1) as [d E3]. rewrite E3. cbn [bind]. assert (S3 := cmap2_shaped _ _ _ _ _ _ E2 E1 E3).
    destruct (cover_total _ _ 2 _ S3) as [al E4].
    { intros i Hi. rewrite (cmap2_get _ _ _ _ _ _ i E2 E1 E3 Hi). destruct (HV i Hi) as [x [y [Hx [Hy Hxy]]]].
      destruct (vmin_ok _ _ (G1 i Hi)) as [_ L]. destruct (vmax_ok _ _ (G2 i Hi)) as [_ U]. assert (L1 := L x Hx). assert (L2 := L y Hy).
      assert (U1 := U x Hx). assert (U2 := U y Hy). intros E. apply Hxy. lra. }
    rewrite E4. cbn [bind]. apply (cover_shaped _ _ _ _ _ S3) in E4; [|lra]. destruct E4 as [E4 _].
    destruct (cmap2_total _ _ Rmult _ _ (cmap_shaped _ _ Ropp _ E1) E4) as [be E5]. rewrite E5. cbn. eauto.
  - assert (L : length (map (map Rabs) Y) = length Y) by apply map_length.
    assert (HV : forall i, i < ng byrow (length Y) -> exists x, In x (grp byrow Y i) /\ x <> 0%R) by (intros i Hi; apply HS; apply in_groups; eauto).
    destruct (stat_tot vmax byrow (map (map Rabs) Y)) as [m E1].
    { intros i Hi. rewrite L in Hi. rewrite abs_grp by auto. apply vmax_total. destruct (HV i Hi) as [x [Hx _]]. destruct (grp byrow Y i); [destruct Hx|discriminate]. }
    assert (G1 := stat_get _ _ _ _ E1). rewrite L in G1. rewrite E1. cbn [bind]. apply stat_shaped in E1. rewrite L in E1.
    destruct (cover_total _ _ 1 _ E1) as [al E2]; [|rewrite E2; cbn; eauto]. intros i Hi. assert (G := G1 i Hi). rewrite abs_grp in G by auto. apply vmax_ok in G.
    eapply max_abs_nz; eauto.
  - assert (HV := scal_varies _ _ _ HS ltac:(discriminate) ltac:(discriminate)).
    destruct (stat_tot mean_nz byrow Y) as [mu E1]; [intros i Hi; eexists; apply mean_nz_total, varies_nonempty; auto|].
    rewrite E1. cbn [bind]. apply stat_shaped in E1. assert (L0 := copm_length ISub mu Y (shaped_okc _ _ _ E1)).
    rewrite exec1_ok by (try discriminate; apply (shaped_okc byrow); exact E1). cbn [bind]. rewrite cop_M. cbn [arr_mat].
    assert (L : length (map (map Rabs) (copm ISub mu Y)) = length Y) by (rewrite map_length; auto).
    destruct (stat_tot vmax byrow (map (map Rabs) (copm ISub mu Y))) as [m E2].
    { intros i Hi. rewrite L in Hi. rewrite abs_grp by (rewrite L0; auto). rewrite cop_grp by auto. apply vmax_total. apply HV in Hi. apply varies_nonempty in Hi.
      destruct (grp byrow Y i); [congruence|discriminate]. }
    assert (G1 := stat_get _ _ _ _ E2). rewrite L in G1. rewrite E2. cbn [bind]. apply stat_shaped in E2. rewrite L in E2.
    destruct (cover_total _ _ 1 _ E2) as [al E3].
    { intros i Hi. assert (G := G1 i Hi). rewrite abs_grp in G by (rewrite L0; auto). rewrite cop_grp in G by auto. apply vmax_ok in G. eapply max_abs_nz; eauto.
      destruct (varies_off _ (cget mu i) (HV i Hi)) as [x [Hx Hnz]]. exists (x - cget mu i)%R. split; auto. apply in_map_iff. exists x. auto. }
    rewrite E3. cbn [bind]. apply (cover_shaped _ _ _ _ _ E2) in E3; [|lra]. destruct E3 as [E3 _].
    destruct (cmap2_total _ _ Rmult _ _ (cmap_shaped _ _ Ropp _ E1) E3) as [be E4]. rewrite E4. cbn. eauto.
  - destruct byrow; [discriminate (Hb eq_refl)|]. cbn [scalable groups] in HS. destruct (HS _ (or_introl eq_refl)) as [x [Hx Hnz]].
    destruct (concat_nonempty_dims n k Y HY) as [Hn Hk]; [intros E; rewrite E in Hx; destruct Hx|]. rewrite (mT_norms n k) by auto.
    destruct (colnorms_total n k Y Hk) as [m E]. rewrite E. cbn [bind]. apply vmax_ok in E.
    destruct (cover_total false n 1 (Sc m)) as [al E2]; [cbn; eauto|intros; cbn; eapply norm_nz; eauto|]. rewrite E2. cbn. eauto.
  - destruct byrow; [discriminate (Hb eq_refl)|]. cbn [scalable groups] in HS. assert (HV := HS _ (or_introl eq_refl)). assert (HN := varies_nonempty _ HV).
    destruct (concat_nonempty_dims n k Y HY HN) as [Hn Hk]. rewrite mean_nz_total by auto. cbn [bind]. set (mu := vmean (concat Y)).
    change (map (map (fun y => (y - mu)%R)) Y) with (copm ISub (Sc mu) Y).
    assert (HY' : is_mat n k (copm ISub (Sc mu) Y)) by (eapply is_mat_shape; [exact HY|apply copm_shape; exact I]).
    rewrite (mT_norms n k) by auto. destruct (colnorms_total n k (copm ISub (Sc mu) Y) Hk) as [m E]. rewrite E. cbn [bind]. apply vmax_ok in E.
    destruct (cover_total false n 1 (Sc m)) as [al E2]; [cbn; eauto| |].
    + intros; cbn. eapply norm_nz; [exact HY'|exact E|]. destruct (varies_off _ mu HV) as [x [Hx Hnz]]. exists (x - mu)%R. split; auto.
      unfold copm. cbn. rewrite <- map_concat. apply in_map_iff. eauto.
    + rewrite E2. cbn [bind]. destruct (cover_shaped false n 1 (Sc m) al) as [[x ->] _]; [cbn; eauto|exact R1_neq_R0|exact E2|]. cbn. eauto. Qed.
Lemma center_copm Y : copm ISub (Vc (map vmean Y)) Y = center_rows Y.
Proof. unfold copm, center_rows. cbn. induction Y as [|r Y IH]; cbn; auto. f_equal. exact IH. Qed.
Lemma C03_total s n k Y : is_mat n k Y -> 0 < k -> (ss_byrow s = true -> ss_scaling s <> Some Maxnorm /\ ss_scaling s <> Some Maxnormsym) ->
  (forall sc, ss_scaling s = Some sc -> scalable sc (ss_byrow s) (if ss_cent s then center_rows Y else Y)) ->
  exists t' b, fit_transform (TSS s) (M Y) = Ok (t', b).
Proof. intros HY Hk Hb HS. unfold fit_transform. cbn [fit_from fit_prog ss_fit].
  assert (HM : mapM mean_nz Y = Ok (map vmean Y)).
  { destruct HY as [_ HY]. revert HY. clear - Hk. induction Y as [|r Y IH]; intros H; auto. apply Forall_cons_iff in H. destruct H as [Hr H].
    cbn. rewrite mean_nz_total by (destruct r; [cbn in Hr; lia|discriminate]). rewrite IH by auto. reflexivity. }
  set (Y1 := if ss_cent s then center_rows Y else Y) in *.
  assert (HY1 : is_mat n k Y1). { unfold Y1. destruct (ss_cent s); auto. rewrite <- center_copm. apply centered_shape; auto. }
  assert (E1 : exists mean p1, (if ss_cent s then do mu <- mapM mean_nz Y; Ok (Some mu, [Stmt ISub (Vc mu)]) else Ok (ss_mean s, [])) = Ok (mean, p1) /\ exec p1 (M Y) = Ok (M Y1)).
  { unfold Y1. destruct (ss_cent s); [|eexists _, _; split; reflexivity]. rewrite HM. cbn [bind]. eexists _, _. split; [reflexivity|].
    rewrite exec_one, exec1_ok by (try discriminate; apply map_length). rewrite cop_M, center_copm. reflexivity. }
  destruct E1 as [mean [p1 [E1 E2]]]. rewrite E1. cbn [bind]. rewrite E2. cbn [bind arr_mat].
  destruct (ss_scaling s) as [sc|] eqn:Es.
  - destruct (learn_total sc (ss_byrow s) n k Y1 HY1) as [[[al be] p] EL]; auto.
    { intros Hr. specialize (Hb Hr). destruct Hb. destruct sc; auto; congruence. }
    rewrite EL. cbn [bind]. rewrite exec_app, E2. cbn [bind]. rewrite (learn_exec _ _ _ _ _ _ EL). cbn. eauto.
  - cbn [bind]. rewrite exec_app, E2. cbn. eauto. Qed.

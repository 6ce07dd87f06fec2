(* PostProofs.v -- the error measures of post/ compute the norms of SpecPost.v (C50). *)
From Verif Require Export PostModel PostNorm MatAlg.
From Verif Require PreStats AffProofs OpsProofs SpecPre.
#[local] Open Scope R_scope.

Lemma vmax_bound v n (H : is_vec n v) (Hn : (0 < n)%nat) (Hv : forall i, (i < n)%nat -> 0 <= vget v i) :
  exists m, PreModel.vmax v = Ok m /\ 0 <= m /\ (forall i, (i < n)%nat -> vget v i <= m) /\ exists i, (i < n)%nat /\ vget v i = m.
Proof.
  destruct (PreStats.vmax_total v) as [m Em]. { intros ->. unfold is_vec in H. cbn in H. lia. }
  exists m. split; auto. apply PreStats.vmax_ok in Em. destruct Em as [Hi Hm].
  apply (In_nth _ _ 0) in Hi. destruct Hi as (i & Hi & E). unfold is_vec in H. rewrite H in Hi.
  split; [rewrite <- E; apply Hv; auto|]. split.
  - intros j Hj. apply Hm. unfold vget. apply nth_In. lia.
  - exists i. auto.
Qed.
Lemma vget_map_in f (g : R -> R) n v i : is_vec n v -> (i < n)%nat -> f = vget (map g v) i -> f = g (vget v i).
Proof. intros H Hi ->. unfold vget. apply nth_map_in. unfold is_vec in H. lia. Qed.
Lemma lsum_bsum n v g : is_vec n v -> lsum (map g v) = bsum n (fun i => g (vget v i)).
Proof.
  intros H. rewrite lsum_nth, map_length. unfold is_vec in H. rewrite H. apply bsum_ext. intros i Hi.
  unfold vget. apply nth_map_in. lia.
Qed.

Lemma vnormp_ok p n v : pos_order p -> (0 < n)%nat -> is_vec n v ->
  exists x, vnormp p v = Ok x /\ is_pnorm p n (vget v) x.
Proof.
  intros Hp Hn Hv. destruct p as [p| | |]; try contradiction; cbn [vnormp].
  - cbn in Hp. destruct (Req_EM_T p 1) as [->|N1]; [|destruct (Req_EM_T p 2) as [->|N2]].
    + exists (lsum (map Rabs v)). split; auto. rewrite (lsum_bsum n) by auto.
      assert (0 <= bsum n (fun i => Rabs (vget v i))) by (apply bsum_nonneg; intros; apply Rabs_pos).
      split; auto. rewrite rpow_1 by auto. apply bsum_ext. intros. symmetry. apply rpow_1, Rabs_pos.
    + exists (sqrt (lsum (map (fun x => x * x) v))). split; auto. rewrite (lsum_bsum n) by auto.
      split; [apply sqrt_pos|]. rewrite rpow_2 by apply sqrt_pos. rewrite sqrt_def.
      * apply bsum_ext. intros. rewrite rpow_2 by apply Rabs_pos. rewrite <- Rabs_mult, Rabs_right; auto. apply Rle_ge, Rle_0_sqr.
      * apply bsum_nonneg. intros. apply Rle_0_sqr.
    + eexists. split; [reflexivity|]. rewrite (lsum_bsum n) by auto. split; [apply rpow_ge0|].
      apply rpow_root'; [|lra]. apply bsum_nonneg. intros. apply rpow_ge0.
  - destruct (vmax_bound (map Rabs v) n) as (m & Em & M0 & M1 & i & Hi & M2); auto.
    { unfold is_vec in *. now rewrite map_length. }
    { intros i Hi. unfold vget. rewrite (nth_map_in Rabs v i 0 0) by (unfold is_vec in Hv; lia). apply Rabs_pos. }
    assert (G : forall i, (i < n)%nat -> vget (map Rabs v) i = Rabs (vget v i)).
    { intros j Hj. unfold vget. apply nth_map_in. unfold is_vec in Hv; lia. }
    exists m. split; auto. split; auto. split.
    + intros j Hj. rewrite <- G by auto. auto.
    + exists i. split; auto. rewrite <- G by auto. auto.
Qed.
Lemma is_pnorm_ext p n f g x : (forall i, (i < n)%nat -> f i = g i) -> is_pnorm p n f x -> is_pnorm p n g x.
Proof. intros E H. apply pnorm_gnorm. apply pnorm_gnorm in H. revert H. apply (gnorm_abs p _ _ (pf_bsum n)). intros i Hi. now rewrite E. Qed.
Lemma mT_row n k Z j : (0 < n)%nat -> is_mat n k Z -> (j < k)%nat -> is_vec n (nth j (mT Z) []) /\ forall i, (i < n)%nat -> vget (nth j (mT Z) []) i = mget Z i j.
Proof.
  intros Hn HZ Hj. pose proof (is_mat_mT n k Z HZ Hn) as HT. split; [apply (is_mat_row k n); auto|].
  intros i Hi. change (mget (mT Z) j i = mget Z i j). apply (mget_mT n k); auto.
Qed.
Lemma norm0_ok p n k Z : pos_order p -> (0 < n)%nat -> is_mat n k Z ->
  exists e, norm0 p (M Z) = Ok e /\ length e = k /\ forall j, (j < k)%nat -> is_pnorm p n (fun i => mget Z i j) (vget e j).
Proof.
  intros Hp Hn HZ. cbn [norm0]. pose proof (is_mat_mT n k Z HZ Hn) as HT.
  destruct (AffProofs.mapM_ok (vnormp p) (fun v => match vnormp p v with Ok x => x | Err _ => 0 end) (mT Z)) as [].
  - intros v Hv. apply (In_nth _ _ []) in Hv. destruct Hv as (j & Hj & <-). rewrite (is_mat_len k n (mT Z) HT) in Hj.
    destruct (mT_row n k Z j Hn HZ Hj) as [Hr _]. destruct (vnormp_ok p n _ Hp Hn Hr) as (x & E & _). now rewrite E.
  - eexists. split; [apply AffProofs.mapM_ok|].
    + intros v Hv. apply (In_nth _ _ []) in Hv. destruct Hv as (j & Hj & <-). rewrite (is_mat_len k n (mT Z) HT) in Hj.
      destruct (mT_row n k Z j Hn HZ Hj) as [Hr _]. destruct (vnormp_ok p n _ Hp Hn Hr) as (x & E & _).
      instantiate (1 := fun v => match vnormp p v with Ok x => x | Err _ => 0 end). cbv beta. now rewrite E.
    + rewrite map_length. split; [apply (is_mat_len k n); auto|]. intros j Hj. destruct (mT_row n k Z j Hn HZ Hj) as [Hr Hg].
      destruct (vnormp_ok p n _ Hp Hn Hr) as (x & E & HN). unfold vget. rewrite (nth_map_in _ (mT Z) j 0 []) by (rewrite (is_mat_len k n (mT Z) HT); auto).
      rewrite E. apply (is_pnorm_ext p n (vget (nth j (mT Z) []))); auto.
Qed.
Lemma shape_eq_ok n k Q A : (0 < n)%nat -> is_mat n k Q -> is_mat n k A -> shape_eq (M Q) (M A) = true.
Proof.
  intros Hn HQ HA. cbn. unfold nrows. rewrite (is_mat_len n k Q), (is_mat_len n k A), (ncols_is_mat n k Q), (ncols_is_mat n k A) by auto.
  now rewrite !Nat.eqb_refl.
Qed.
Lemma check_p_ok p : pos_order p <-> check_p p = Ok tt.
Proof. destruct p as [p| | |]; cbn; [destruct (Rle_dec p 0)|..]; split; intros; try lra; try contradiction; try discriminate; auto. Qed.
Lemma npdiv_quotient a b : quotient a b (npdiv a b).
Proof. unfold npdiv, quotient. destruct (Req_EM_T b 0); auto. Qed.
Lemma npdivs k (e d : vec) j : length e = k -> length d = k -> (j < k)%nat -> nth j (map2 npdiv e d) None = npdiv (vget e j) (vget d j).
Proof. intros H1 H2 Hj. unfold vget. apply map2_nth; lia. Qed.

(* lp_error of two n x k arrays *)
Lemma lp_error_ok n k Q A p normalize : (0 < n)%nat -> (0 < k)%nat -> is_mat n k Q -> is_mat n k A -> pos_order p ->
  exists e rel d, lp_error (M Q) (M A) p normalize = Ok (e, rel) /\ length e = k /\ length rel = k /\ length d = k /\
    (forall j, (j < k)%nat -> is_pnorm p n (fun i => mget Q i j - mget A i j) (vget e j)) /\
    (forall j, (j < k)%nat -> is_pnorm p n (fun i => mget Q i j) (vget d j)) /\
    (if normalize
     then exists m, (forall j, (j < k)%nat -> vget d j <= m) /\ (exists j, (j < k)%nat /\ vget d j = m) /\
                    forall j, (j < k)%nat -> quotient (vget e j) m (nth j rel None)
     else forall j, (j < k)%nat -> quotient (vget e j) (vget d j) (nth j rel None)).
Proof.
  intros Hn Hk HQ HA Hp. unfold lp_error. rewrite (proj1 (check_p_ok p) Hp). cbn [bind]. rewrite (shape_eq_ok n k) by auto. cbn [negb].
  destruct (norm0_ok p n k Q Hp Hn HQ) as (d & Ed & Ld & Hd). rewrite Ed. cbn [bind arrsub].
  destruct (norm0_ok p n k (msub Q A) Hp Hn (is_mat_msub n k Q A HQ HA)) as (e & Ee & Le & He). rewrite Ee.
  assert (He' : forall j, (j < k)%nat -> is_pnorm p n (fun i => mget Q i j - mget A i j) (vget e j)).
  { intros j Hj. apply (is_pnorm_ext p n (fun i => mget (msub Q A) i j)); auto. intros i Hi. now apply (mget_msub n k). }
  destruct normalize.
  - destruct (vmax_bound d k) as (m & Em & M0 & M1 & M2); auto. { intros j Hj. apply Hd; auto. }
    rewrite Em. cbn [bind]. do 3 eexists. split; [reflexivity|]. split; [exact Le|]. split; [rewrite map2_length, repeat_length; lia|]. split; [exact Ld|].
    split; auto. split; auto. exists m. split; auto. split; auto. intros j Hj. rewrite (npdivs k) by (rewrite ?repeat_length; auto).
    replace (vget (repeat m (length d)) j) with m; [apply npdiv_quotient|]. unfold vget. symmetry. rewrite (nth_indep _ 0 m) by (rewrite repeat_length; lia). apply nth_repeat.
  - cbn [bind]. do 3 eexists. split; [reflexivity|]. split; [exact Le|]. split; [rewrite map2_length; lia|]. split; [exact Ld|].
    split; auto. split; auto. intros j Hj. rewrite (npdivs k) by auto. apply npdiv_quotient.
Qed.
(* lp_error of two vectors *)
Lemma lp_error_vec n q a p normalize : (0 < n)%nat -> is_vec n q -> is_vec n a -> pos_order p ->
  exists e rel d, lp_error (V q) (V a) p normalize = Ok ([e], [rel]) /\
    is_pnorm p n (fun i => vget q i - vget a i) e /\ is_pnorm p n (vget q) d /\ quotient e d rel.
Proof.
  intros Hn Hq Ha Hp. unfold lp_error. rewrite (proj1 (check_p_ok p) Hp). cbn [bind shape_eq]. replace (length q =? length a)%nat with true by (symmetry; apply Nat.eqb_eq; congruence).
  cbn [negb norm0]. destruct (vnormp_ok p n q Hp Hn Hq) as (d & Ed & Hd). rewrite Ed. cbn [bind arrsub norm0].
  destruct (vnormp_ok p n (vsub q a) Hp Hn (is_vec_vsub n q a Hq Ha)) as (e & Ee & He). rewrite Ee.
  destruct normalize; cbn; exists e, (npdiv e d), d; (split; [reflexivity|]); (split; [|split; [auto|apply npdiv_quotient]]);
    apply (is_pnorm_ext p n (vget (vsub q a))); auto; intros i Hi; now apply (vget_vsub n).
Qed.
Lemma lp_error_shapes Q A p nz : shape_eq Q A = false -> lp_error Q A p nz = Err ValueError.
Proof. intros H. unfold lp_error. destruct p as [p| | |]; cbn; [destruct (Rle_dec p 0); cbn|..]; rewrite ?H; auto. Qed.
Lemma lp_error_order Q A p nz : ~ pos_order p -> lp_error Q A p nz = Err ValueError.
Proof. intros H. unfold lp_error. destruct p as [p| | |]; cbn in *; try (exfalso; tauto); auto. destruct (Rle_dec p 0); [reflexivity|lra]. Qed.

Section Axioms.
Variables (n k : nat) (p : order).
Hypotheses (Hn : (0 < n)%nat) (Hk : (0 < k)%nat) (Hp : pos_order p).
Let pnorm_unique n0 f x y : is_pnorm p n0 f x -> is_pnorm p n0 f y -> x = y.
Proof. rewrite !pnorm_gnorm. apply gnorm_unique; auto. Qed.

Lemma lp_fact Q A nz e rel : is_mat n k Q -> is_mat n k A -> lp_error (M Q) (M A) p nz = Ok (e, rel) ->
  length e = k /\ length rel = k /\ (forall j, (j < k)%nat -> is_pnorm p n (fun i => mget Q i j - mget A i j) (vget e j)) /\
  exists d, length d = k /\ (forall j, (j < k)%nat -> is_pnorm p n (fun i => mget Q i j) (vget d j)) /\
    if nz then exists m, (forall j, (j < k)%nat -> vget d j <= m) /\ (exists j, (j < k)%nat /\ vget d j = m) /\ forall j, (j < k)%nat -> quotient (vget e j) m (nth j rel None)
    else forall j, (j < k)%nat -> quotient (vget e j) (vget d j) (nth j rel None).
Proof.
  intros HQ HA E. destruct (lp_error_ok n k Q A p nz) as (e' & rel' & d & E' & H1 & H2 & H3 & H4 & H5 & H6); auto.
  rewrite E' in E. injection E as -> ->. repeat (split; [assumption|]). exists d. auto.
Qed.
Lemma lp_zero Q A nz e rel : is_mat n k Q -> is_mat n k A -> lp_error (M Q) (M A) p nz = Ok (e, rel) ->
  forall j, (j < k)%nat -> (vget e j = 0 <-> forall i, (i < n)%nat -> mget Q i j = mget A i j).
Proof.
  intros HQ HA E j Hj. destruct (lp_fact Q A nz e rel HQ HA E) as (_ & _ & He & _). specialize (He j Hj). rewrite pnorm_gnorm in He.
  rewrite (gnorm_zero p _ _ (pf_bsum n) Hp _ _ (def_bsum n) He). split; intros K i Hi; specialize (K i Hi); lra.
Qed.
Lemma lp_sym Q A nz nz' e rel e' rel' : is_mat n k Q -> is_mat n k A ->
  lp_error (M Q) (M A) p nz = Ok (e, rel) -> lp_error (M A) (M Q) p nz' = Ok (e', rel') -> e' = e.
Proof.
  intros HQ HA E E'. destruct (lp_fact Q A nz e rel HQ HA E) as (L & _ & He & _). destruct (lp_fact A Q nz' e' rel' HA HQ E') as (L' & _ & He' & _).
  apply (vec_ext k); auto. intros j Hj. apply (pnorm_unique n (fun i => mget A i j - mget Q i j)); auto.
  specialize (He j Hj). rewrite pnorm_gnorm in *. apply (gnorm_abs p _ _ (pf_bsum n) (fun i => mget Q i j - mget A i j)); auto. intros i Hi. apply Rabs_minus_sym.
Qed.
Lemma lp_scale c Q A Q' A' nz e rel e' rel' : is_mat n k Q -> is_mat n k A -> times n k c Q Q' -> times n k c A A' ->
  lp_error (M Q) (M A) p nz = Ok (e, rel) -> lp_error (M Q') (M A') p nz = Ok (e', rel') ->
  (forall j, (j < k)%nat -> vget e' j = Rabs c * vget e j) /\ (c <> 0 -> rel' = rel).
Proof.
  intros HQ HA [HQ' GQ] [HA' GA] E E'. destruct (lp_fact Q A nz e rel HQ HA E) as (L & Lr & He & d & Ld & Hd & Hr).
  destruct (lp_fact Q' A' nz e' rel' HQ' HA' E') as (L' & Lr' & He' & d' & Ld' & Hd' & Hr').
  assert (Ee : forall j, (j < k)%nat -> vget e' j = Rabs c * vget e j).
  { intros j Hj. apply (pnorm_unique n (fun i => mget Q' i j - mget A' i j)); auto. specialize (He j Hj). rewrite pnorm_gnorm in *.
    apply (gnorm_scal p _ _ (pf_bsum n) Hp c) in He. revert He. apply (gnorm_abs p _ _ (pf_bsum n)). intros i Hi. rewrite GQ, GA by auto. f_equal. ring. }
  assert (Ed : forall j, (j < k)%nat -> vget d' j = Rabs c * vget d j).
  { intros j Hj. apply (pnorm_unique n (fun i => mget Q' i j)); auto. specialize (Hd j Hj). rewrite pnorm_gnorm in *.
    apply (gnorm_scal p _ _ (pf_bsum n) Hp c) in Hd. revert Hd. apply (gnorm_abs p _ _ (pf_bsum n)). intros i Hi. rewrite GQ by auto. f_equal. }
  split; auto. intros Hc. assert (Pc : 0 < Rabs c) by now apply Rabs_pos_lt.
  assert (QQ : forall a b x y, quotient a b x -> quotient (Rabs c * a) (Rabs c * b) y -> y = x).
  { intros a b x y [[-> ->]|[Nb ->]] [[K ->]|[Nb' ->]]; auto.
    - exfalso. apply Nb'. ring.
    - exfalso. apply Rmult_integral in K. destruct K; [lra|auto].
    - f_equal. field. split; auto. lra. }
  apply (nth_ext _ _ None None); [congruence|]. rewrite Lr'. intros j Hj. destruct nz.
  - destruct Hr as (m & M1 & (jm & Hjm & M2) & M3). destruct Hr' as (m' & M1' & (jm' & Hjm' & M2') & M3').
    assert (Em : m' = Rabs c * m).
    { apply Rle_antisym.
      - rewrite <- M2', Ed by auto. apply Rmult_le_compat_l; [lra|auto].
      - rewrite <- M2, <- Ed by auto. auto. }
    specialize (M3 j Hj). specialize (M3' j Hj). rewrite Ee, Em in M3' by auto. eapply QQ; eauto.
  - specialize (Hr j Hj). specialize (Hr' j Hj). rewrite Ee, Ed in Hr' by auto. eapply QQ; eauto.
Qed.
Lemma lp_triangle Q A B nz nz' nz'' e rel e' rel' e'' rel'' : at_least_one p -> is_mat n k Q -> is_mat n k A -> is_mat n k B ->
  lp_error (M Q) (M B) p nz = Ok (e, rel) -> lp_error (M Q) (M A) p nz' = Ok (e', rel') -> lp_error (M A) (M B) p nz'' = Ok (e'', rel'') ->
  forall j, (j < k)%nat -> vget e j <= vget e' j + vget e'' j.
Proof.
  intros H1 HQ HA HB E E' E'' j Hj.
  destruct (lp_fact _ _ nz e rel HQ HB E) as (_ & _ & He & _). destruct (lp_fact _ _ nz' e' rel' HQ HA E') as (_ & _ & He' & _). destruct (lp_fact _ _ nz'' e'' rel'' HA HB E'') as (_ & _ & He'' & _).
  specialize (He j Hj). specialize (He' j Hj). specialize (He'' j Hj). rewrite pnorm_gnorm in *.
  eapply (gnorm_triangle p _ _ (pf_bsum n) Hp); [exact H1| |exact He'|exact He''|exact He]. intros i Hi. cbv beta.
  replace (mget Q i j - mget B i j) with ((mget Q i j - mget A i j) + (mget A i j - mget B i j)) by ring. apply Rabs_triang.
Qed.
End Axioms.

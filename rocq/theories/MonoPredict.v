(* MonoPredict.v -- DiscreteModel.predict and the stacking of trajectories. *)
From Coq Require Import ZArith String.
From Verif Require Export MonoRhs.
#[local] Open Scope nat_scope.

Lemma colv_of_columns r cols j : Forall (is_vec r) cols -> j < length cols -> colv r (of_columns r cols) j = nth j cols [].
Proof. intros HF Hj. rewrite Forall_forall in HF. apply (vec_ext r); [apply is_vec_colv|apply HF, nth_In; auto|]. intros i Hi. rewrite vget_colv by auto.
  unfold mget, of_columns. rewrite (nth_map_in (fun i => map (fun c => vget c i) cols) (seq 0 r) i [] 0) by (rewrite seq_length; auto). rewrite seq_nth by auto.
  rewrite (nth_map_in (fun c => vget c (0 + i)) cols j 0%R []) by auto. reflexivity. Qed.
Lemma is_mat_of_columns r cols : is_mat r (length cols) (of_columns r cols).
Proof. unfold of_columns. apply is_mat_map_gen; [apply seq_length|]. intros i _. apply map_length. Qed.
Lemma mcols_of_columns r cols a b : mcols a b (of_columns r cols) = of_columns r (slice a b cols).
Proof. unfold mcols, of_columns. rewrite map_map. apply map_ext. intros i. unfold slice. rewrite skipn_map, firstn_map. reflexivity. Qed.

(* ---- the loop ---- *)
Lemma iterate_inv f n j q l : iterate f n j q = Ok l -> length l = n /\ forall i, i < n -> f (nth i (q :: l) []) (j + i) = Ok (nth i l []).
Proof. revert j q l. induction n as [|n IH]; intros j q l E; cbn in E; [injection E as <-; split; auto; lia|]. destruct (f q j) as [q'|] eqn:Ef; [|discriminate]. cbn in E.
  destruct (iterate f n (S j) q') as [t|] eqn:Et; [|discriminate]. cbn in E. injection E as <-. destruct (IH _ _ _ Et) as [HL HV]. split; [cbn; lia|].
  intros [|i] Hi; [rewrite Nat.add_0_r; auto|]. specialize (HV i ltac:(lia)). replace (j + S i) with (S j + i) by lia. exact HV. Qed.
Lemma iterate_ok f n j q (P : vec -> Prop) : P q -> (forall q i, P q -> j <= i < j + n -> exists q', f q i = Ok q' /\ P q') ->
  exists l, iterate f n j q = Ok l /\ Forall P l.
Proof. revert j q. induction n as [|n IH]; intros j q Hq H; cbn; [exists []; auto|]. destruct (H q j Hq ltac:(lia)) as (q' & E & Hq'). rewrite E. cbn.
  destruct (IH (S j) q' Hq') as (l & El & Hl). { intros q0 i H0 Hi. apply H; auto. lia. } rewrite El. cbn. exists (q' :: l). auto. Qed.
Lemma iterate_app f a b j q l : iterate f (a + b) j q = Ok l -> iterate f a j q = Ok (firstn a l) /\ iterate f b (j + a) (nth a (q :: l) []) = Ok (skipn a l).
Proof. revert j q l. induction a as [|a IH]; intros j q l E.
  - cbn. rewrite Nat.add_0_r. split; auto.
  - cbn [Nat.add iterate] in E. destruct (f q j) as [q'|] eqn:Ef; [|discriminate]. cbn in E. destruct (iterate f (a + b) (S j) q') as [t|] eqn:Et; [|discriminate]. cbn in E. injection E as <-.
    destruct (IH _ _ _ Et) as [E1 E2]. cbn [iterate]. rewrite Ef. cbn. rewrite E1. cbn. split; auto. replace (j + S a) with (S j + a) by lia. exact E2. Qed.
Lemma iterate_ext f g n j k q : (forall q i, i < n -> f q (j + i) = g q (k + i)) -> iterate f n j q = iterate g n k q.
Proof. revert j k q. induction n as [|n IH]; intros j k q H; auto. cbn. assert (E := H q 0 ltac:(lia)). rewrite !Nat.add_0_r in E. rewrite E. destruct (g q k) as [q'|]; auto. cbn.
  rewrite (IH (S j) (S k)); auto. intros q0 i Hi. replace (S j + i) with (j + S i) by lia. replace (S k + i) with (k + S i) by lia. apply H. lia. Qed.

Section Predict.
  Variables (X : lsx) (d : model) (r : nat).
  Hypotheses (HM : minv X d) (HT : check_trained d = Ok tt) (Hr : m_r d = Some r).

  Definition stepf (inputs : option inputarg) (q : vec) (j : nat) : res vec := rhs_vec d q (step_input d inputs j).
  Lemma step_ok inputs n q j : enough_inputs d inputs n -> is_vec r q -> j < n - 1 -> exists q', stepf inputs q j = Ok q' /\ is_vec r q' /\ rhs d (V q) (step_input d inputs j) = Ok (V q').
  Proof. intros HE Hq Hj.
    assert (HU : exists u, step_input d inputs j = option_map V u /\ input_for d u).
    { unfold step_input, input_for. destruct (m_hasin d) eqn:Eh; [|exists None; split; auto; discriminate].
      destruct (HE Eh) as (u & m & k & E1 & E2 & E3 & E4). subst inputs. eexists (Some _). split; [reflexivity|]. intros _. eexists m, _. split; auto. split; auto.
      rewrite <- (is_mat_nrows _ _ _ E3). apply is_vec_colv. }
    destruct HU as (u & Eu & HU). rewrite Eu. destruct (rhs_sum X d r q u HM HT Hr Hq HU) as (ys & y & _ & Ey & Hy & _). exists y.
    unfold stepf, rhs_vec. rewrite Eu, Ey. auto. Qed.

  Lemma predict_unfold q0 n inputs : is_vec r q0 -> enough_inputs d inputs n -> 1 <= n ->
    predict d (V q0) (Z.of_nat n) inputs = (do cols <- iterate (stepf inputs) (n - 1) 0 q0; Ok (of_columns r (q0 :: cols))).
  Proof. intros Hq HE Hn. unfold predict. rewrite HT. cbn [bind]. rewrite Hr. rewrite Hq, Nat.eqb_refl. cbn [negb].
    destruct (Z.ltb_spec (Z.of_nat n) 1); [lia|]. rewrite Nat2Z.id. unfold stepf, step_input. destruct (m_hasin d) eqn:Eh.
    - destruct (HE Eh) as (u & m & k & E1 & E2 & E3 & E4). subst inputs. cbn [andb]. rewrite E2. cbn [is_dim]. rewrite (is_mat_nrows _ _ _ E3), Nat.eqb_refl. cbn [negb orb].
      assert (Hm : 0 < m). { destruct (trained_dims X d HM HT) as (r' & m' & _ & Hm & _ & Em & _). rewrite Em in E2 by auto. congruence. }
      rewrite (ncols_is_mat _ _ _ E3 Hm). destruct (Nat.ltb_spec k (n - 1)); [lia|]. reflexivity.
    - cbn [andb]. reflexivity. Qed.

  Lemma predict_recurrence q0 n inputs : is_vec r q0 -> enough_inputs d inputs n -> 1 <= n -> exists Q, predict d (V q0) (Z.of_nat n) inputs = Ok Q /\ is_mat r n Q /\
    colv r Q 0 = q0 /\ forall j, j + 1 < n -> rhs d (V (colv r Q j)) (step_input d inputs j) = Ok (V (colv r Q (j + 1))).
  Proof. intros Hq HE Hn. rewrite predict_unfold by auto.
    destruct (iterate_ok (stepf inputs) (n - 1) 0 q0 (is_vec r) Hq) as (l & El & Hl).
    { intros q i Hqi Hi. destruct (step_ok inputs n q i HE Hqi ltac:(lia)) as (q' & E & Hq' & _). eauto. }
    rewrite El. cbn [bind]. destruct (iterate_inv _ _ _ _ _ El) as [HL HV]. exists (of_columns r (q0 :: l)).
    assert (HF : Forall (is_vec r) (q0 :: l)) by (constructor; auto).
    split; auto. split. { replace n with (length (q0 :: l)) by (cbn; lia). apply is_mat_of_columns. }
    split. { rewrite colv_of_columns by (auto; cbn; lia). reflexivity. }
    intros j Hj. rewrite !colv_of_columns by (auto; cbn; lia). specialize (HV j ltac:(lia)). cbn [Nat.add] in HV.
    assert (Hqj : is_vec r (nth j (q0 :: l) [])). { rewrite Forall_forall in HF. apply HF, nth_In. cbn; lia. }
    destruct (step_ok inputs n _ j HE Hqj ltac:(lia)) as (q' & E & Hq' & ER). rewrite E in HV. injection HV as ->. rewrite ER. do 2 f_equal.
    replace (j + 1) with (S j) by lia. reflexivity. Qed.

  Lemma enough_less inputs n n' : enough_inputs d inputs n -> n' <= n -> enough_inputs d inputs n'.
  Proof. intros HE Hn Hh. destruct (HE Hh) as (u & m & k & E1 & E2 & E3 & E4). exists u, m, k. repeat (split; auto). lia. Qed.

  Lemma predict_prefix q0 n n' inputs Q : is_vec r q0 -> enough_inputs d inputs n -> 1 <= n' -> n' <= n ->
    predict d (V q0) (Z.of_nat n) inputs = Ok Q -> predict d (V q0) (Z.of_nat n') inputs = Ok (mcols 0 n' Q).
  Proof. intros Hq HE Hn' Hn E. rewrite predict_unfold in E by (auto; lia). rewrite predict_unfold by (eauto using enough_less).
    destruct (iterate (stepf inputs) (n - 1) 0 q0) as [l|] eqn:El; [|discriminate]. cbn in E. injection E as <-.
    replace (n - 1) with ((n' - 1) + (n - n')) in El by lia. destruct (iterate_app _ _ _ _ _ _ El) as [E1 _]. rewrite E1. cbn [bind].
    rewrite mcols_of_columns. unfold slice. cbn [skipn]. replace (n' - 0) with (S (n' - 1)) by lia. reflexivity. Qed.

  Lemma skipn_mat m k j U : is_mat m k U -> is_mat m (k - j) (map (skipn j) U).
  Proof. intros [HL HF]. apply is_mat_map; auto. intros row Hrow. rewrite skipn_length. rewrite Forall_forall in HF. specialize (HF row Hrow). unfold is_vec in HF. lia. Qed.
  Lemma nth_skipn {A} (l : list A) j i x : nth i (skipn j l) x = nth (j + i) l x.
  Proof. revert l. induction j as [|j IH]; intros [|a l]; cbn; auto. destruct i; auto. Qed.
  Lemma later_colv m u j i : colv (nrows (atleast_2d (match u with V v => V (skipn j v) | M U => M (map (skipn j) U) end)))
      (atleast_2d (match u with V v => V (skipn j v) | M U => M (map (skipn j) U) end)) i = colv (nrows (atleast_2d u)) (atleast_2d u) (j + i) \/ ~ is_mat m 0 [].
  Proof. left. destruct u as [v|U]; cbn [atleast_2d].
    - cbn. unfold colv. cbn. unfold mget. cbn. rewrite nth_skipn. reflexivity.
    - unfold nrows. rewrite map_length. unfold colv. apply map_ext_in. intros a Ha. apply in_seq in Ha. unfold mget.
      rewrite (nth_map_in (skipn j) U a [] []) by (cbn in Ha; lia). apply nth_skipn. Qed.
  Lemma later_enough inputs n j : enough_inputs d inputs n -> j < n -> enough_inputs d (later j inputs) (n - j).
  Proof. intros HE Hj Hh. destruct (HE Hh) as (u & m & k & -> & E2 & E3 & E4). destruct u as [v|U]; cbn [later atleast_2d] in *.
    - exists (V (skipn j v)), m, (k - j). split; auto. split; auto. split; [|lia]. cbn [atleast_2d]. exact (skipn_mat m k j [v] E3).
    - exists (M (map (skipn j) U)), m, (k - j). split; auto. split; auto. split; [|lia]. cbn [atleast_2d]. apply skipn_mat; auto. Qed.
  Lemma later_step inputs j i : step_input d (later j inputs) i = step_input d inputs (j + i).
  Proof. unfold step_input. destruct (m_hasin d); auto. destruct inputs as [[u|]|]; auto. destruct (later_colv 0 u j i) as [E|E].
    - destruct u; cbn [later]; rewrite E; reflexivity.
    - exfalso. apply E. split; auto. Qed.

  Lemma predict_restart q0 n j inputs Q : is_vec r q0 -> enough_inputs d inputs n -> j < n ->
    predict d (V q0) (Z.of_nat n) inputs = Ok Q -> predict d (V (colv r Q j)) (Z.of_nat (n - j)) (later j inputs) = Ok (mcols j n Q).
  Proof. intros Hq HE Hj E. destruct (predict_recurrence q0 n inputs Hq HE ltac:(lia)) as (Q' & E' & HQ & _). rewrite E in E'. injection E' as <-.
    rewrite predict_unfold by (auto using is_vec_colv, later_enough; lia). rewrite predict_unfold in E by (auto; lia).
    destruct (iterate (stepf inputs) (n - 1) 0 q0) as [l|] eqn:El; [|discriminate]. cbn in E. injection E as <-.
    destruct (iterate_inv _ _ _ _ _ El) as [HL _].
    assert (HF : Forall (is_vec r) (q0 :: l)).
    { constructor; auto. destruct (iterate_ok (stepf inputs) (n - 1) 0 q0 (is_vec r) Hq) as (l' & El' & Hl').
      { intros q i Hqi Hi. destruct (step_ok inputs n q i HE Hqi ltac:(lia)) as (q' & E & Hq' & _). eauto. } rewrite El in El'. injection El' as <-. auto. }
    rewrite colv_of_columns by (auto; cbn; lia).
    replace (n - 1) with (j + (n - j - 1)) in El by lia. destruct (iterate_app _ _ _ _ _ _ El) as [_ E2].
    rewrite (iterate_ext (stepf (later j inputs)) (stepf inputs) (n - j - 1) 0 (0 + j)).
    - rewrite E2. cbn [bind]. f_equal. rewrite mcols_of_columns. f_equal. unfold slice. rewrite firstn_all2 by (rewrite skipn_length; cbn [length]; lia).
      assert (HS : skipn j (q0 :: l) = nth j (q0 :: l) [] :: skipn j l).
      { clear - HL Hj. assert (Hj' : j < length (q0 :: l)) by (cbn; lia). clear HL Hj. revert q0 l Hj'. induction j as [|j IH]; intros q0 l Hj'; auto. destruct l as [|a l]; [cbn in Hj'; lia|].
        cbn [skipn nth]. apply IH. cbn in *. lia. }
      symmetry. exact HS.
    - intros q i Hi. unfold stepf. rewrite later_step. reflexivity. Qed.
End Predict.

(* ---- what predict refuses ---- *)
Lemma predict_untrained d q0 n inputs e : check_trained d = Err e -> predict d q0 n inputs = Err e.
Proof. intros E. unfold predict. rewrite E. auto. Qed.
Lemma predict_rejects d r q0 n inputs : check_trained d = Ok tt -> m_r d = Some r ->
  (match q0 with V q => length q <> r | M _ => True end) -> predict d q0 n inputs = Err DimensionalityError.
Proof. intros HT Hr H. unfold predict. rewrite HT, Hr. cbn [bind]. destruct q0 as [q|A]; auto. destruct (Nat.eqb_spec (length q) r); [congruence|auto]. Qed.
Lemma predict_few d r q0 n inputs : check_trained d = Ok tt -> m_r d = Some r -> length q0 = r ->
  (n < 1)%Z \/ (m_hasin d = true /\ (inputs = None \/ exists u, inputs = Some (UArr u) /\ (m_m d <> Some (nrows (atleast_2d u)) \/ (Z.of_nat (ncols (atleast_2d u)) < n - 1)%Z))) ->
  predict d (V q0) n inputs = Err ValueError.
Proof. intros HT Hr Hq H. unfold predict. rewrite HT, Hr. cbn [bind]. rewrite Hq, Nat.eqb_refl. cbn [negb].
  destruct (m_hasin d && match inputs with None => true | Some _ => false end) eqn:Eb; auto. destruct (Z.ltb_spec n 1); auto.
  destruct H as [H|(Hh & H)]; [lia|]. rewrite Hh in *. destruct H as [->|(u & -> & H)]; [discriminate|].
  assert (E : negb (is_dim (m_m d) (nrows (atleast_2d u))) || (ncols (atleast_2d u) <? Z.to_nat n - 1) = true).
  { destruct H as [H|H].
    - destruct (m_m d) as [m|]; cbn; auto. destruct (Nat.eqb_spec m (nrows (atleast_2d u))); [congruence|auto].
    - apply Bool.orb_true_iff. right. apply Nat.ltb_lt. lia. }
  rewrite E. auto. Qed.
Lemma predict_callable d r q0 n : check_trained d = Ok tt -> m_r d = Some r -> length q0 = r -> m_hasin d = true -> (1 <= n)%Z ->
  predict d (V q0) n (Some UCall) = Err TypeError.
Proof. intros HT Hr Hq Hh Hn. unfold predict. rewrite HT, Hr. cbn [bind]. rewrite Hq, Nat.eqb_refl, Hh. cbn [negb andb]. destruct (Z.ltb_spec n 1); [lia|auto]. Qed.

(* ---- trajectories --------------------------------------------------------------------------------------------------------- *)
Lemma hstack_get r cs l : 0 < r -> blocks r cs l -> forall t Mt c i j, nth_error l t = Some Mt -> nth_error cs t = Some c -> i < r -> j < c ->
  mget (hstack l) i (lsumn (firstn t cs) + j) = mget Mt i j.
Proof. intros Hr HB. induction HB as [|c0 M0 cs l HM HB IH]; intros t Mt c i j Et Ec Hi Hj; [destruct t; discriminate|].
  destruct l as [|M1 l].
  - destruct t as [|t]; [|destruct t; discriminate]. cbn in Et, Ec. injection Et as ->. cbn. reflexivity.
  - rewrite (hstack_step r c0 cs M0 (M1 :: l)) by (auto; discriminate). assert (HS := is_mat_hstack r cs (M1 :: l) HB ltac:(discriminate)).
    rewrite (mget_hcat r c0 (lsumn cs)) by auto. destruct t as [|t]; cbn [nth_error firstn] in *.
    + injection Et as ->. injection Ec as ->. cbn [lsumn fold_right Nat.add]. destruct (Nat.ltb_spec j c); [auto|lia].
    + change (lsumn (c0 :: firstn t cs)) with (c0 + lsumn (firstn t cs)). destruct (Nat.ltb_spec (c0 + lsumn (firstn t cs) + j) c0); [lia|].
      replace (c0 + lsumn (firstn t cs) + j - c0) with (lsumn (firstn t cs) + j) by lia. eapply IH; eauto. Qed.
Lemma hstack_r_ok r cs l : blocks r cs l -> l <> [] -> hstack_r l = Ok (hstack l).
Proof. intros HB Hne. destruct l as [|A l]; [congruence|]. unfold hstack_r. assert (E : forallb (fun B => nrows A =? nrows B) l = true); [|rewrite E; auto].
  apply forallb_forall. intros B HBin. assert (H := blocks_nrows r cs _ HB). rewrite Forall_forall in H. apply Nat.eqb_eq. unfold nrows. rewrite (H A), (H B); cbn; auto. Qed.
Lemma nth_removelast {A} (l : list A) j x : j < length l - 1 -> nth j (removelast l) x = nth j l x.
Proof. revert j. induction l as [|a [|b l] IH]; intros j Hj; cbn [length] in *; try lia. change (removelast (a :: b :: l)) with (a :: removelast (b :: l)).
  destruct j; auto. cbn [nth]. apply IH. cbn [length]. lia. Qed.
Lemma mget_removelast r k Q i j : is_mat r k Q -> i < r -> j < k - 1 -> mget (map (@removelast R) Q) i j = mget Q i j.
Proof. intros HQ Hi Hj. rewrite (mget_map r k) by auto. unfold vget. destruct HQ as [HL HF]. rewrite Forall_forall in HF.
  apply nth_removelast. rewrite (HF (nth i Q [])); auto. apply nth_In. lia. Qed.
Lemma mget_tl r k Q i j : is_mat r k Q -> i < r -> mget (map (@tl R) Q) i j = mget Q i (j + 1).
Proof. intros HQ Hi. rewrite (mget_map r k) by auto. unfold vget, mget. replace (j + 1) with (S j) by lia. destruct (nth i Q []); auto. cbn. destruct j; auto. Qed.
Lemma firstn_map_comm {A B} (f : A -> B) n l : firstn n (map f l) = map f (firstn n l).
Proof. apply firstn_map. Qed.
Lemma mget_firstn r k c U i j : is_mat r k U -> i < r -> j < c -> mget (map (firstn c) U) i j = mget U i j.
Proof. intros HU Hi Hj. rewrite (mget_map r k) by auto. unfold vget, mget. generalize (nth i U []). clear HU Hi. intros v. revert c j Hj. induction v as [|a v IH]; intros [|c] j Hj; cbn; try lia; auto.
  destruct j; auto. apply IH. lia. Qed.

Section Stack.
  Variables (r : nat) (ks : list nat) (Qs : list mat).
  Hypotheses (Hr : 0 < r) (HQ : trajectories r ks Qs).
  Lemma blocks_rl : blocks r (map (fun k => k - 1) ks) (map (map (@removelast R)) Qs).
  Proof. destruct HQ as (HB & _ & _). clear - HB. induction HB; cbn; constructor; auto. apply is_mat_removelast; auto. Qed.
  Lemma blocks_tl : blocks r (map (fun k => k - 1) ks) (map (map (@tl R)) Qs).
  Proof. destruct HQ as (HB & _ & _). clear - HB. induction HB; cbn; constructor; auto. apply is_mat_tl; auto. Qed.
  Lemma Qs_ne : Qs <> []. Proof. apply HQ. Qed.
  Lemma map_ne {A B} (f : A -> B) l : l <> [] -> map f l <> []. Proof. destruct l; cbn; congruence. Qed.

  Definition pairing (S N : mat) : Prop :=
    is_mat r (lsumn (map (fun k => k - 1) ks)) S /\ is_mat r (lsumn (map (fun k => k - 1) ks)) N /\
    forall t Q k j, nth_error Qs t = Some Q -> nth_error ks t = Some k -> j + 1 < k ->
      colv r S (pairs_before t ks + j) = colv r Q j /\ colv r N (pairs_before t ks + j) = colv r Q (j + 1).
  Lemma stack_states : exists S N, hstack_r (map (map (@removelast R)) Qs) = Ok S /\ hstack_r (map (map (@tl R)) Qs) = Ok N /\ pairing S N.
  Proof. eexists _, _. split; [eapply hstack_r_ok; [apply blocks_rl|apply map_ne, Qs_ne]|]. split; [eapply hstack_r_ok; [apply blocks_tl|apply map_ne, Qs_ne]|].
    split; [apply is_mat_hstack; [apply blocks_rl|apply map_ne, Qs_ne]|]. split; [apply is_mat_hstack; [apply blocks_tl|apply map_ne, Qs_ne]|].
    intros t Q k j Et Ek Hj. assert (HQt : is_mat r k Q).
    { destruct HQ as (HB & _). clear - HB Et Ek. revert t Et Ek. induction HB; intros [|t] Et Ek; cbn in *; try discriminate; [congruence|eauto]. }
    unfold pairs_before. rewrite <- firstn_map. split; apply (vec_ext r); auto using is_vec_colv; intros i Hi; rewrite !vget_colv by auto.
    - rewrite (hstack_get r _ _ Hr blocks_rl t (map (@removelast R) Q) (k - 1)); auto; [|rewrite nth_error_map, Et; auto|rewrite nth_error_map, Ek; auto|lia].
      apply (mget_removelast r k); auto. lia.
    - rewrite (hstack_get r _ _ Hr blocks_tl t (map (@tl R) Q) (k - 1)); auto; [|rewrite nth_error_map, Et; auto|rewrite nth_error_map, Ek; auto|lia].
      apply (mget_tl r k); auto. Qed.

  Lemma stack_noinputs : exists S N, stack_trajectories Qs None = Ok (S, N, None) /\ pairing S N.
  Proof. destruct stack_states as (S & N & E1 & E2 & HP). exists S, N. unfold stack_trajectories. rewrite E1, E2. auto. Qed.

  Lemma blocks_cut m us : inputs2 m ks us -> exists Us, as_mats (map2 (fun Q u => cut (ncols Q - 1) u) Qs us) = Ok Us /\
    blocks m (map (fun k => k - 1) ks) Us /\
    forall t u k, nth_error us t = Some u -> nth_error ks t = Some k -> exists U Ut, u = M U /\ nth_error Us t = Some Ut /\
      forall i j, i < m -> j + 1 < k -> mget Ut i j = mget U i j.
  Proof. destruct HQ as (HB & HP & _). clear HQ. unfold inputs2. intros HI. revert us HI. induction HB as [|k Q ks' Qs' HQ' HB IH]; intros us HI.
    - inversion HI; subst. exists []. split; auto. split; [constructor|]. intros [|t] u k; discriminate.
    - inversion HI as [|? u ? us' (U & K & -> & HU & HK) HI']; subst. inversion HP; subst. destruct (IH ltac:(assumption) us' HI') as (Us & EU & HBU & HV).
      cbn [map2 map]. rewrite (ncols_is_mat r k Q HQ' Hr). exists (map (firstn (k - 1)) U :: Us). split; [|split].
      + unfold as_mats in *. cbn [mapM cut bind]. rewrite EU. reflexivity.
      + constructor; auto. destruct HU as [HL HF]. apply is_mat_map; auto. intros row Hrow. rewrite Forall_forall in HF. specialize (HF row Hrow). rewrite firstn_length. unfold is_vec in HF. lia.
      + intros [|t] u0 k0 Eu Ek; cbn in Eu, Ek; [|apply (HV t u0 k0); auto]. injection Eu as <-. injection Ek as <-. exists U. eexists. split; auto. split; [reflexivity|].
        intros i j Hi Hj. apply (mget_firstn m K); auto. lia. Qed.
  Lemma stack_inputs m us : 0 < m -> inputs2 m ks us -> exists S N U, stack_trajectories Qs (Some us) = Ok (S, N, Some (M U)) /\ pairing S N /\
    is_mat m (lsumn (map (fun k => k - 1) ks)) U /\
    forall t u k j, nth_error us t = Some u -> nth_error ks t = Some k -> j + 1 < k -> colv m U (pairs_before t ks + j) = colv m (atleast_2d u) j.
  Proof. intros Hm HI. destruct stack_states as (S & N & E1 & E2 & HP). destruct (blocks_cut m us HI) as (Us & EU & HB & HV). unfold stack_trajectories. rewrite E1, E2. cbn [bind].
    assert (Hne : Us <> []). { intros ->. destruct HQ as (HBQ & _ & Hn0). assert (H1 := Forall2_len _ _ _ HB). assert (H2 := Forall2_len _ _ _ HBQ). rewrite map_length in H1. cbn in H1. destruct Qs; auto. cbn in H2. lia. }
    assert (EH : hstack_arr (map2 (fun Q u => cut (ncols Q - 1) u) Qs us) = Ok (M (hstack Us))).
    { assert (HR := hstack_r_ok m _ Us HB Hne). revert EU. unfold hstack_arr, as_mats. destruct (map2 _ Qs us) as [|[v|A] t] eqn:EM; cbn [mapM bind]; intros EU.
      - injection EU as <-. congruence.
      - discriminate.
      - rewrite EU. cbn [bind]. rewrite HR. auto. }
    rewrite EH. cbn [bind]. exists S, N, (hstack Us). split; auto. split; auto. split; [apply is_mat_hstack; auto|].
    intros t u k j Eu Ek Hj. destruct (HV t u k Eu Ek) as (U & Ut & -> & EUt & HG). cbn [atleast_2d]. apply (vec_ext m); auto using is_vec_colv. intros i Hi. rewrite !vget_colv by auto.
    unfold pairs_before. rewrite <- firstn_map. rewrite (hstack_get m _ _ Hm HB t Ut (k - 1)); auto; [rewrite nth_error_map, Ek; auto|lia]. Qed.

  (* one-dimensional inputs *)
  Lemma concat_get (l : list vec) cs : Forall2 (fun c v => length v = c) cs l -> forall t v c j, nth_error l t = Some v -> nth_error cs t = Some c -> j < c ->
    vget (concat l) (lsumn (firstn t cs) + j) = vget v j.
  Proof. induction 1 as [|c0 v0 cs l Hv H IH]; intros t v c j Et Ec Hj; [destruct t; discriminate|]. destruct t as [|t]; cbn [nth_error firstn concat] in *.
    - injection Et as ->. injection Ec as ->. cbn [lsumn fold_right Nat.add]. unfold vget. rewrite app_nth1 by lia. auto.
    - change (lsumn (c0 :: firstn t cs)) with (c0 + lsumn (firstn t cs)). unfold vget. rewrite app_nth2 by lia. rewrite Hv. replace (c0 + lsumn (firstn t cs) + j - c0) with (lsumn (firstn t cs) + j) by lia. eapply IH; eauto. Qed.
  Lemma vecs_cut us : inputs1 ks us -> exists Us, as_vecs (map2 (fun Q u => cut (ncols Q - 1) u) Qs us) = Ok Us /\
    Forall2 (fun c v => length v = c) (map (fun k => k - 1) ks) Us /\
    forall t u k, nth_error us t = Some u -> nth_error ks t = Some k -> exists v Ut, u = V v /\ nth_error Us t = Some Ut /\ forall j, j + 1 < k -> vget Ut j = vget v j.
  Proof. destruct HQ as (HB & HP & _). clear HQ. unfold inputs1. intros HI. revert us HI. induction HB as [|k Q ks' Qs' HQ' HB IH]; intros us HI.
    - inversion HI; subst. exists []. split; auto. split; [constructor|]. intros [|t] u k; discriminate.
    - inversion HI as [|? u ? us' (v & -> & HK) HI']; subst. inversion HP; subst. destruct (IH ltac:(assumption) us' HI') as (Us & EU & HBU & HV).
      cbn [map2 map]. rewrite (ncols_is_mat r k Q HQ' Hr). exists (firstn (k - 1) v :: Us). split; [|split].
      + unfold as_vecs in *. cbn [mapM cut bind]. rewrite EU. reflexivity.
      + constructor; auto. rewrite firstn_length. lia.
      + intros [|t] u0 k0 Eu Ek; cbn in Eu, Ek; [|apply (HV t u0 k0); auto]. injection Eu as <-. injection Ek as <-. exists v. eexists. split; auto. split; [reflexivity|].
        intros j Hj. exact (mget_firstn 1 (length v) (k - 1) [v] 0 j ltac:(split; auto) ltac:(lia) ltac:(lia)). Qed.
  Lemma stack_inputs_1d us : inputs1 ks us -> exists S N w, stack_trajectories Qs (Some us) = Ok (S, N, Some (V w)) /\ pairing S N /\
    length w = lsumn (map (fun k => k - 1) ks) /\
    forall t u k j, nth_error us t = Some u -> nth_error ks t = Some k -> j + 1 < k -> exists v, u = V v /\ vget w (pairs_before t ks + j) = vget v j.
  Proof. intros HI. destruct stack_states as (S & N & E1 & E2 & HP). destruct (vecs_cut us HI) as (Us & EU & HB & HV). unfold stack_trajectories. rewrite E1, E2. cbn [bind].
    assert (Hne : Us <> []). { intros ->. destruct HQ as (HBQ & _ & Hn0). assert (H1 := Forall2_len _ _ _ HB). assert (H2 := Forall2_len _ _ _ HBQ). rewrite map_length in H1. cbn in H1. destruct Qs; auto. cbn in H2. lia. }
    assert (EH : hstack_arr (map2 (fun Q u => cut (ncols Q - 1) u) Qs us) = Ok (V (concat Us))).
    { revert EU. unfold hstack_arr, as_vecs. destruct (map2 _ Qs us) as [|[v|A] t] eqn:EM; cbn [mapM bind]; intros EU.
      - injection EU as <-. congruence.
      - rewrite EU. auto.
      - discriminate. }
    rewrite EH. cbn [bind]. exists S, N, (concat Us). split; auto. split; auto. split.
    { clear - HB. revert HB. generalize (map (fun k => k - 1) ks). induction 1 as [|c v cs l Hv H IH]; auto. cbn [concat]. rewrite app_length, IH, Hv. reflexivity. }
    intros t u k j Eu Ek Hj. destruct (HV t u k Eu Ek) as (v & Ut & -> & EUt & HG). exists v. split; auto.
    unfold pairs_before. rewrite <- firstn_map. rewrite (concat_get Us _ HB t Ut (k - 1)); auto; [rewrite nth_error_map, Ek; auto|lia]. Qed.
End Stack.

(* DiscreteModel.fit without nextstates: successive snapshots of the one trajectory *)
Lemma discrete_pairs X d r k Q inputs : m_frozen d = false -> 0 < r -> 1 < k -> is_mat r k Q -> exists S N, is_mat r (k - 1) S /\ is_mat r (k - 1) N /\
  (forall j, j + 1 < k -> colv r S j = colv r Q j /\ colv r N j = colv r Q (j + 1)) /\
  discrete_fit X d (M Q) None inputs = fit X d (M S) (M N) (option_map (cut (k - 1)) inputs).
Proof. intros Hf Hr Hk HQ. exists (map (@removelast R) Q), (map (@tl R) Q). assert (HS := is_mat_removelast r k Q HQ). assert (HN := is_mat_tl r k Q HQ).
  split; auto. split; auto. split.
  { intros j Hj. split; apply (vec_ext r); auto using is_vec_colv; intros i Hi; rewrite !vget_colv by auto; [apply (mget_removelast r k)|apply (mget_tl r k)]; auto; lia. }
  unfold discrete_fit. rewrite Hf. rewrite (ncols_is_mat _ _ _ HS Hr). destruct inputs; reflexivity. Qed.

(* PodFn.v -- pod_basis(): the functional form of PODBasis. *)
From Coq Require Import ZArith Lra.
From Verif Require Import LinAlg MatAlg BasisProofs MonoLists PodRank PodFinal PodHist SpecBasis.
#[local] Open Scope nat_scope.

Lemma firstn_cols n k r A : is_mat n k A -> r <= k -> is_mat n r (map (firstn r) A).
Proof.
  intros [H1 H2] Hr. split; [now rewrite map_length|]. apply Forall_forall. intros row Hrow. apply in_map_iff in Hrow. destruct Hrow as (x & <- & Hx).
  rewrite Forall_forall in H2. rewrite firstn_length, (H2 x Hx). lia.
Qed.
Lemma mget_firstn n k r A i j : is_mat n k A -> i < n -> j < r -> mget (map (firstn r) A) i j = mget A i j.
Proof.
  intros [H1 _] Hi Hj. unfold mget. rewrite (nth_map_in (firstn r) A i [] []) by lia. unfold vget.
  revert r Hj. generalize (nth i A []). intros l. revert j. induction l as [|x l IH]; intros j r Hj; [now rewrite firstn_nil|]. destruct r; [lia|]. destruct j; auto. cbn. apply IH. lia.
Qed.
Lemma pod_function X Q n k a sv W E s Rt : is_mat n k Q -> 0 < n -> 0 < k -> nonneg_args a ->
  (forall p L s0 Vt, pod_init X (match pick a with Ok _ => a | Err _ => by_num (Z.of_nat (Nat.min n k)) end) None sv W None = Ok p -> pod_svd X p (Nat.min n k) Q = Ok (L, s0, Vt) -> is_mat n (Nat.min n k) L /\ is_mat (Nat.min n k) k Vt) ->
  pod_basis X Q a sv W = Ok (E, s, Rt) ->
  exists p q L s0 Vt r,
  pod_init X (match pick a with Ok _ => a | Err _ => by_num (Z.of_nat (Nat.min n k)) end) None sv W None = Ok p /\ pod_fit X (S2 Q) p = (q, None) /\
  pod_svd X p (Nat.min n k) Q = Ok (L, s0, Vt) /\ keeps q r /\ r <= Nat.min n k /\ ((forall c, pick a <> Ok c) -> r = Nat.min n k) /\
  p_entries q = Some E /\ p_svals q = Some s /\ normalized s0 = Ok s /\ is_mat n r E /\ is_mat k r Rt /\
  forall c, c < r -> (forall i, i < n -> mget E i c = mget L i c) /\ (forall j, j < k -> mget Rt j c = mget Vt c j).
Proof.
  intros HQ Hn Hk Ha Hshape EP. set (m := Nat.min n k) in *. unfold pod_basis in EP. assert (EnQ : nrows Q = n) by apply (is_mat_len _ _ _ HQ). rewrite EnQ, (ncols_is_mat n k Q HQ Hn) in EP. fold m in EP.
  set (a' := match pick a with Ok _ => a | Err _ => by_num (Z.of_nat m) end).
  assert (Ea : (if no_crit a then {| a_num := Some (Z.of_nat m); a_sval := None; a_cum := None; a_res := None; a_proj := None |} else a) = a') by (unfold no_crit, a'; destruct (pick a); reflexivity).
  rewrite Ea in EP. clear Ea. destruct (pod_init X a' None sv W None) as [p|] eqn:Ep; [|discriminate]. cbn [bind] in EP.
  destruct (pod_init_fresh _ _ _ _ _ _ _ Ep) as (_ & Hc & Hm & _). cbn [option_map] in Hm.
  destruct (pod_fit X (S2 Q) p) as [q [e|]] eqn:Eq; [discriminate|].
  pose proof Eq as Ef. unfold pod_fit in Ef. cbn [snap_mat] in Ef. rewrite EnQ, (ncols_is_mat n k Q HQ Hn), Hm in Ef. fold m in Ef.
  destruct (pod_svd X p m Q) as [[[L s0] Vt]|] eqn:Es; [|discriminate]. destruct (Hshape _ _ _ _ Ep Es) as [HL HV].
  rewrite (mcols_all n m L HL) in Ef. replace (firstn m Vt) with Vt in Ef by (symmetry; apply firstn_all2; now rewrite (is_mat_len _ _ _ HV)).
  apply andthen_inv in Ef. destruct Ef as (p1 & Est & Efc). apply store_svd_inv in Est. destruct Est as (s1 & En & ->).
  destruct (from_criterion_keeps _ _ _ Efc) as (K1 & K2 & K3). cbn in K1, K2, K3.
  assert (HS : stores q s1 n m) by (exists L; auto).
  assert (Hd : dimensioned X (p_crit p) q) by (left; exists p, (S2 Q); auto).
  assert (Hz : forall z, p_crit p = CNum z -> (0 <= z)%Z).
  { apply crit_nonneg_z. apply (pick_nonneg a'); auto. unfold a'. destruct (pick a); auto. unfold nonneg_args. cbn. lia. }
  destruct (dimensioned_keeps X _ q s1 n m Hd HS Hz) as (_ & HK & _). set (r := Nat.min (Z.to_nat (rank_of (p_crit p) s1)) m) in HK.
  assert (Hr : r <= m) by (unfold r; lia).
  pose proof HK as (L' & Q1 & Q2 & Q3 & Q4). rewrite K2 in Q1. injection Q1 as <-.
  rewrite Q4, K1, K3, Q2 in EP. cbn [need bind] in EP. injection EP as <- <- <-.
  exists p, q, L, s0, Vt, r. split; [reflexivity|]. do 3 (split; [auto|]). split; [exact Hr|]. split.
  { intros Hno. unfold r, a' in *. destruct (pick a) as [c|] eqn:Epk; [destruct (Hno c eq_refl)|]. cbn [pick by_num a_num] in Hc. injection Hc as Hc. rewrite <- Hc. cbn [rank_of]. rewrite Nat2Z.id. lia. }
  split; auto. split; auto. split; auto. assert (Hm0 : 0 < m) by (unfold m; lia).
  replace (map (py_slice None (Some (Z.of_nat r))) (mT Vt)) with (map (firstn r) (mT Vt)) by (apply map_ext; intros l; rewrite py_slice_to by lia; now rewrite Nat2Z.id).
  pose proof (is_mat_mT _ _ _ HV Hm0) as HT. split; [apply (firstn_cols n m); auto|]. split; [apply (firstn_cols k m); auto|].
  intros c Hcr. split; intros i Hi; [apply (mget_firstn n m); auto|]. rewrite (mget_firstn k m) by auto. apply (mget_mT m k); auto.
Qed.

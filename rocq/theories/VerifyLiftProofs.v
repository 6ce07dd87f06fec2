(* VerifyLiftProofs.v -- proofs about verify() of lifters. *)
From Coq Require Import ZArith Lia Lra.
From Verif Require VerifyOpProofs.
From Verif Require Import AffProofs LiftProofs LiftDeriv DdtProofs VerifyTf.
From Verif Require Export SpecVerifyLift.
#[local] Open Scope nat_scope.
#[local] Open Scope list_scope.

(* ---- the derivative estimates ---- *)
Lemma gradient_mat n k Q t : is_mat n k Q -> length t = k -> is_mat n k (map (fun f => gradient f t) Q).
Proof.
  intros [H1 H2] Ht. split; [now rewrite map_length|]. apply Forall_map. apply Forall_forall. intros f _. unfold is_vec, gradient. now rewrite map_length, seq_length.
Qed.
Lemma ddt_total n k Q t D : 0 < n -> is_mat n k Q -> ddt (M Q) [t] [] = Ok D ->
  is_mat n k D /\ forall N L, 0 < N -> is_mat N k L -> exists E, ddt (M L) [t] [] = Ok E /\ is_mat N k E.
Proof.
  intros Hn HQ H. destruct t as [x|z|a|]; try discriminate.
  - cbn -[ddt_uniform] in H. destruct (le_lt_dec k 2) as [K|K].
    + rewrite (ddt_uniform_short 2 n k x Q) in H by (auto). discriminate.
    + split.
      * destruct (ddt_uniform_shape 2 n k x Q) as [E [E1 E2]]; auto. unfold call_uniform in H. cbn -[ddt_uniform] in H. rewrite E1 in H. congruence.
      * intros N L HN HL. destruct (ddt_uniform_shape 2 N k x L) as [E [E1 E2]]; auto. exists E. split; auto.
  - cbn in H. destruct a as [t|A]; [|discriminate]. rewrite (ncols_is_mat n k Q HQ Hn) in H. destruct (Nat.eqb_spec k (length t)) as [Ek|]; [|discriminate]. cbn [negb] in H.
    unfold np_gradient in H. destruct (length t <? 3) eqn:E3; [discriminate|]. inversion H; subst. split; [now apply gradient_mat|].
    intros N L HN HL. exists (map (fun f => gradient f t) L). split; [|now apply gradient_mat]. cbn. rewrite (ncols_is_mat N _ L HL HN), Nat.eqb_refl. cbn. unfold np_gradient. now rewrite E3.
Qed.
(* ---- arrays of numbers ---- *)
Lemma mapM_fin v : mapM fin1 (map F v) = Ok v.
Proof. induction v as [|x v IH]; [reflexivity|]. cbn. rewrite IH. reflexivity. Qed.
Lemma nfinite_finite A : nfinite (finite (M A)) = Ok A.
Proof. cbn. induction A as [|v A IH]; [reflexivity|]. cbn. rewrite mapM_fin. cbn. rewrite IH. reflexivity. Qed.
Lemma nclose_refl x : nclose (F x) x = true.
Proof. exact (VerifyOpProofs.rclose_refl x). Qed.
Lemma nallclose_refl A : nallclose (finite (M A)) (M A) = true.
Proof.
  cbn. induction A as [|v A IH]; [reflexivity|]. cbn [map combine forallb]. rewrite IH, Bool.andb_true_r. cbn [fst snd]. induction v as [|x v IHv]; [reflexivity|].
  cbn [map combine forallb fst snd]. rewrite nclose_refl, IHv. reflexivity.
Qed.
Lemma hd_map_F A : length (hd [] (map (map F) A)) = ncols A.
Proof. destruct A; [reflexivity|]. cbn. apply map_length. Qed.
Lemma nshape_fin n k A B : 0 < n -> is_mat n k A -> is_mat n k B -> nshape_eqb (finite (M A)) (finite (M B)) = true.
Proof.
  intros Hn HA HB. cbn. rewrite !map_length, !hd_map_F, (is_mat_len _ _ _ HA), (is_mat_len _ _ _ HB), (ncols_is_mat n k A HA Hn), (ncols_is_mat n k B HB Hn), !Nat.eqb_refl. reflexivity.
Qed.
(* ---- the verdict, from the values of the methods ---- *)
Lemma lifter_core o n k N Q L t tol dd D X Ef est : 0 < n -> 0 < N -> is_mat n k Q -> is_mat N k L ->
  vl_lift o (M Q) = Ok (finite (M L)) -> vl_unlift o (finite (M L)) = Ok (finite (M Q)) -> vl_ddts o = Some dd -> dd (M Q) (M Q) = Ok X ->
  ddt (M Q) [t] [] = Ok D -> dd (M Q) (M D) = Ok (finite (M Ef)) -> is_mat N k Ef -> ddt (M L) [t] [] = Ok est ->
  v_lifter o (M Q) (Some t) tol = rassert (negb (exceeds Ef est tol)).
Proof.
  intros Hn HN HQ HL E1 E2 E3 E4 E5 E6 HE E7. unfold v_lifter. rewrite E1. cbn [bind]. cbn [nshape1 finite ashape1 bind]. rewrite hd_map_F.
  rewrite (ncols_is_mat N k L HL HN), (ncols_is_mat n k Q HQ Hn), Nat.eqb_refl. cbn [rassert bind].
  change (NM (map (map F) L)) with (finite (M L)). rewrite E2. cbn [bind]. change (NM (map (map F) Q)) with (finite (M Q)).
  rewrite (nshape_fin n k Q Q) by auto. cbn [rassert bind]. rewrite nallclose_refl. cbn [rassert bind]. rewrite E3, E4. cbn [bind]. rewrite E5. cbn [bind]. rewrite E6. cbn [bind].
  rewrite (nshape_fin N k Ef L) by auto. cbn [rassert bind]. rewrite nfinite_finite. cbn [bind]. rewrite E7. cbn [bind]. rewrite nfinite_finite. reflexivity.
Qed.

(* ---- PolynomialLifter with positive integers ---- *)
Definition tabm (n k : nat) (f : nat -> nat -> R) : mat := map (fun i => map (f i) (seq 0 k)) (seq 0 n).
Definition blk (n k : nat) (f : nat -> nat -> nat -> R) (ns : list nat) : mat := concat (map (fun p => tabm n k (f p)) ns).
Lemma blk_mat n k f ns : is_mat (length ns * n) k (blk n k f ns).
Proof.
  unfold blk. induction ns as [|p ns IH]; [split; [reflexivity|constructor]|]. destruct IH as [I1 I2]. destruct (is_mat_tab n k (f p) : is_mat n k (tabm n k (f p))) as [T1 T2]. cbn [map concat length mult]. split; [rewrite app_length, I1, T1; reflexivity|]. now apply Forall_app.
Qed.
Lemma blk_get n k f ns a i j : a < length ns -> i < n -> j < k -> mget (blk n k f ns) (a * n + i) j = f (nth a ns 0) i j.
Proof.
  intros Ha Hi Hj. unfold mget, blk. rewrite nth_concat_uniform with (s := n); [| |now rewrite map_length|auto].
  - rewrite (nth_indep _ [] (tabm n k (f 0))) by now rewrite map_length. rewrite (map_nth (fun p => tabm n k (f p))). apply (mget_tab n k (f (nth a ns 0)) i j Hi Hj).
  - intros l Hl. apply in_map_iff in Hl. destruct Hl as [p [<- _]]. apply (is_mat_len n k). apply is_mat_tab.
Qed.
Lemma blockarr_finite n k Q g f ns : 0 < n -> is_mat n k Q -> (forall p i j, In p ns -> i < n -> j < k -> g (INR p) i j = F (f p i j)) ->
  blockarr (M Q) g (map INR ns) = finite (M (blk n k f ns)).
Proof.
  intros Hn HQ H. cbn [blockarr finite]. f_equal. rewrite (ncols_is_mat n k Q HQ Hn). unfold nrows. rewrite (is_mat_len n k Q HQ). unfold blk. rewrite concat_map, !map_map. f_equal.
  apply map_ext_in. intros p Hp. unfold tabm. rewrite map_map. apply map_ext_in. intros i Hi. rewrite map_map. apply map_ext_in. intros j Hj. apply in_seq in Hi, Hj. apply H; auto; lia.
Qed.
Lemma npow_pred x p : 0 < p -> npow (F x) (INR p - 1)%R = F (x ^ (p - 1)%nat)%R.
Proof. intros Hp. replace (INR p - 1)%R with (INR (p - 1)) by (rewrite minus_INR by lia; reflexivity). apply npow_nat. Qed.
Definition ddt_blk (n k : nat) (ns : list nat) (Q D : mat) : mat := blk n k (fun p i j => (INR p * mget Q i j ^ (p - 1)%nat * mget D i j)%R) ns.
Section Poly.
Variables (n k : nat) (ns : list nat) (Q : mat).
Hypothesis Hn : 0 < n.
Hypothesis HQ : is_mat n k Q.
Hypothesis Hns : ns <> [].
Lemma prop_Q : proper (M Q). Proof. exists n, k. auto. Qed.
Lemma ns_ne : map INR ns <> []. Proof. destruct ns; [congruence|discriminate]. Qed.
Definition pow_blk : mat := blk n k (fun p i j => (mget Q i j ^ p)%R) ns.
Lemma lift_blk : poly_lift (map INR ns) (M Q) = Ok (finite (M pow_blk)).
Proof. rewrite poly_lift_ok by (apply prop_Q || apply ns_ne). f_equal. apply blockarr_finite; auto. intros. cbn [SpecLift.aget]. apply npow_nat. Qed.
Lemma len_pos : 0 < length ns * n. Proof. destruct ns; [congruence|]. cbn. lia. Qed.
Lemma pow_spec : powers n k ns Q pow_blk.
Proof. split; [apply blk_mat|]. intros. apply (blk_get n k (fun p i j => (mget Q i j ^ p)%R)); auto. Qed.
Hypothesis Hpos : forall p, In p ns -> 0 < p.
Lemma ddts_blk D : is_mat n k D -> poly_lift_ddts (map INR ns) (M Q) (M D) = Ok (finite (M (ddt_blk n k ns Q D))).
Proof.
  intros HD. rewrite poly_lift_ddts_ok; [|exists n, k; auto|apply ns_ne]. f_equal. apply blockarr_finite; auto. intros p i j Hp Hi Hj. cbn [SpecLift.aget]. rewrite npow_pred by auto. reflexivity.
Qed.
Lemma unlift_blk : In 1 ns \/ (forall i j, i < n -> j < k -> (0 <= mget Q i j)%R) -> poly_unlift (map INR ns) (finite (M pow_blk)) = Ok (finite (M Q)).
Proof.
  intros H. apply (poly_unlift_lift (map INR ns) (M Q)); [apply prop_Q|apply ns_ne|apply lift_blk|]. destruct H as [H|H].
  - left. apply in_map_iff. exists 1. auto.
  - right. destruct ns as [|p ns'] eqn:En; [congruence|]. exists (INR p). split.
    + exists [], (map INR ns'). split; [reflexivity|]. split; [|intros x []]. apply not_0_INR. specialize (Hpos p (or_introl eq_refl)). lia.
    + intros x Hx. apply (in_entries (M Q) x prop_Q) in Hx. destruct Hx as (i & j & Hi & Hj & <-). left. cbn [SpecLift.arows SpecLift.acols SpecLift.aget] in *.
      rewrite (ncols_is_mat n k Q HQ Hn) in Hj. unfold nrows in Hi. rewrite (is_mat_len n k Q HQ) in Hi. auto.
Qed.
Lemma ddt_spec D : power_derivatives n k ns Q D (ddt_blk n k ns Q D).
Proof. split; [apply blk_mat|]. intros. apply (blk_get n k (fun p i j => (INR p * mget Q i j ^ (p - 1)%nat * mget D i j)%R)); auto. Qed.
Lemma poly_verdict t tol D : In 1 ns \/ (forall i j, i < n -> j < k -> (0 <= mget Q i j)%R) -> (0 <= tol)%R -> ddt (M Q) [t] [] = Ok D ->
  exists L E est, powers n k ns Q L /\ power_derivatives n k ns Q D E /\ ddt (M L) [t] [] = Ok est /\ is_mat (length ns * n) k est /\
  (v_lifter (poly_lifter (map INR ns)) (M Q) (Some t) tol = Ok tt <-> within (length ns * n) k tol E est) /\
  (v_lifter (poly_lifter (map INR ns)) (M Q) (Some t) tol = Err VerificationError <-> ~ within (length ns * n) k tol E est).
Proof.
  intros H1 Ht HD. destruct (ddt_total n k Q t D Hn HQ HD) as [HDm HT]. destruct (HT _ pow_blk len_pos (proj1 pow_spec)) as [est [EE HE]].
  exists pow_blk, (ddt_blk n k ns Q D), est. split; [apply pow_spec|]. split; [apply ddt_spec|]. split; auto. split; auto.
  rewrite (lifter_core (poly_lifter (map INR ns)) n k (length ns * n) Q pow_blk t tol (poly_lift_ddts (map INR ns)) D (finite (M (ddt_blk n k ns Q Q))) (ddt_blk n k ns Q D) est);
    auto using len_pos, lift_blk, unlift_blk, ddts_blk; try (apply pow_spec); try (apply ddt_spec).
  pose proof (exceeds_false (length ns * n) k (ddt_blk n k ns Q D) est tol (proj1 (ddt_spec D)) HE Ht) as EX. unfold within.
  destruct (exceeds _ est tol); cbn [negb rassert]; split; split; intros H; try discriminate; auto.
  - apply EX in H. discriminate.
  - intros C. apply EX in C. discriminate.
  - apply EX. reflexivity.
  - exfalso. apply H. apply EX. reflexivity.
Qed.
Lemma poly_no_time tol : In 1 ns \/ (forall i j, i < n -> j < k -> (0 <= mget Q i j)%R) -> v_lifter (poly_lifter (map INR ns)) (M Q) None tol = Err ValueError.
Proof.
  intros H1. unfold v_lifter. cbn [vl_lift vl_unlift vl_ddts poly_lifter]. rewrite lift_blk. cbn [bind nshape1 finite ashape1]. rewrite hd_map_F.
  rewrite (ncols_is_mat _ k pow_blk (proj1 pow_spec) len_pos), (ncols_is_mat n k Q HQ Hn), Nat.eqb_refl. cbn [rassert bind].
  change (NM (map (map F) pow_blk)) with (finite (M pow_blk)). rewrite unlift_blk by auto. cbn [bind]. change (NM (map (map F) Q)) with (finite (M Q)).
  rewrite (nshape_fin n k Q Q) by auto. cbn [rassert bind]. rewrite nallclose_refl. cbn [rassert bind]. rewrite (ddts_blk Q HQ). reflexivity.
Qed.
End Poly.

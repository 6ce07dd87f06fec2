(* VerifyLiftMore.v -- more about verify() of lifters. *)
From Coq Require Import ZArith Lia Lra.
From Verif Require Import AffProofs LiftProofs LiftDeriv DdtProofs VerifyTf LinAlg.
From Verif Require Export VerifyLiftProofs.
#[local] Open Scope nat_scope.
#[local] Open Scope list_scope.
Tactic Notation "take" hyp(H) ident(a) ident(E) := match type of H with bind ?x _ = _ => destruct x as [a|] eqn:E; cbn [bind] in H; [|discriminate H] end.

(* ---- QuadraticLifter is PolynomialLifter([1, 2]) ---- *)
Lemma quad_verify n k Q t tol : 0 < n -> is_mat n k Q -> v_lifter quad_lifter (M Q) t tol = v_lifter (poly_lifter (map INR [1; 2])) (M Q) t tol.
Proof.
  intros Hn HQ. replace (map INR [1; 2]) with [1; 2]%R by (cbn; f_equal; f_equal; lra). unfold v_lifter. cbn [vl_lift vl_unlift vl_ddts quad_lifter poly_lifter].
  rewrite quad_is_poly by (exists n, k; auto). destruct (poly_lift _ _) as [L|]; cbn [bind]; [|reflexivity]. destruct (nshape1 L); cbn [bind]; [|reflexivity]. cbn [ashape1 bind].
  destruct (rassert _); cbn [bind]; [|reflexivity]. rewrite quad_unlift_is_poly. destruct (poly_unlift _ _) as [W|]; cbn [bind]; [|reflexivity].
  destruct (rassert _); cbn [bind]; [|reflexivity]. destruct (rassert _); cbn [bind]; [|reflexivity].
  rewrite (quad_ddts_is_poly (M Q) (M Q)) by (exists n, k; auto). destruct (poly_lift_ddts _ _ _); cbn [bind]; [|reflexivity]. destruct t as [t|]; [|reflexivity].
  destruct (ddt (M Q) [t] []) as [D|] eqn:ED; cbn [bind]; [|reflexivity]. destruct (ddt_total n k Q t D Hn HQ ED) as [HD _].
  rewrite (quad_ddts_is_poly (M Q) (M D)) by (exists n, k; auto). reflexivity.
Qed.
Lemma quad_verdict n k Q t tol D : 0 < n -> is_mat n k Q -> (0 <= tol)%R -> ddt (M Q) [t] [] = Ok D ->
  exists L E est, powers n k [1; 2] Q L /\ power_derivatives n k [1; 2] Q D E /\ ddt (M L) [t] [] = Ok est /\ is_mat (2 * n) k est /\
  (v_lifter quad_lifter (M Q) (Some t) tol = Ok tt <-> within (2 * n) k tol E est) /\
  (v_lifter quad_lifter (M Q) (Some t) tol = Err VerificationError <-> ~ within (2 * n) k tol E est).
Proof.
  intros Hn HQ Ht HD. rewrite (quad_verify n k) by auto. apply (poly_verdict n k [1; 2] Q); auto; [discriminate|intros p [<-|[<-|[]]]; lia|left; left; auto].
Qed.

(* ---- states that are affine in time ---- *)
(* ddt.ddt(., t) is exact on quadratic functions of the times *)
Definition exact_on_quadratics (k : nat) (times : nat -> R) (t : pyarg) : Prop :=
  forall r cs Q, 0 < r -> (forall i, i < r -> length (cs i) <= 3) -> samples r k times (fun i => peval (cs i)) Q ->
  exists D, ddt (M Q) [t] [] = Ok D /\ is_mat r k D /\ forall i j, i < r -> j < k -> derivable_pt_lim (peval (cs i)) (times j) (mget D i j).
Lemma exact_times k t : 3 <= k -> length t = k -> (forall j, S j < k -> (vget t j < vget t (S j))%R) -> exact_on_quadratics k (vget t) (AArray (V t)).
Proof. intros H1 H2 H3 r cs Q Hr Hc HS. exact (ddt_nonuniform_exact r k t cs Q Hr H1 H2 H3 Hc HS). Qed.
Lemma exact_step k t0 dt : 3 <= k -> dt <> 0%R -> exact_on_quadratics k (grid t0 dt) (AFloat dt).
Proof. intros H1 H2 r cs Q Hr Hc HS. apply (ddt_uniform_deriv 2 r k t0 dt cs Q); auto. Qed.
Definition pow_cs (p : nat) (a b : R) : list R := if p =? 1 then [a; b] else [a * a; 2 * a * b; b * b]%R.
Lemma peval_2 a b x : peval [a; b] x = (a + b * x)%R.
Proof. unfold peval. cbn. ring. Qed.
Lemma peval_3 a b c x : peval [a; b; c] x = (a + b * x + c * (x * x))%R.
Proof. unfold peval. cbn. ring. Qed.
Lemma peval_2_der a b x : derivable_pt_lim (peval [a; b]) x b.
Proof. pose proof (peval_deriv [a; b] x) as H. replace b with (dpeval [a; b] x) at 2; auto. unfold dpeval. cbn. ring. Qed.
Lemma peval_3_der a b c x : derivable_pt_lim (peval [a; b; c]) x (b + 2 * c * x)%R.
Proof. pose proof (peval_deriv [a; b; c] x) as H. replace (b + 2 * c * x)%R with (dpeval [a; b; c] x); auto. unfold dpeval. cbn. ring. Qed.
Lemma affine_verified n k times t ns A B Q tol : 0 < n -> 0 < k -> ns <> [] -> (forall p, In p ns -> p = 1 \/ p = 2) -> In 1 ns -> exact_on_quadratics k times t ->
  is_mat n k Q -> (forall i j, i < n -> j < k -> mget Q i j = (vget A i + vget B i * times j)%R) -> (0 <= tol)%R ->
  v_lifter (poly_lifter (map INR ns)) (M Q) (Some t) tol = Ok tt.
Proof.
  intros Hn Hk Hne H12 H1 HX HQ HE Ht.
  destruct (HX n (fun i => [vget A i; vget B i]) Q Hn) as [D [ED [HD DD]]]; [intros; cbn; lia| |].
  { split; auto. intros i j Hi Hj. rewrite HE, peval_2 by auto. ring. }
  destruct (poly_verdict n k ns Q Hn HQ Hne) with (t := t) (tol := tol) (D := D) as (L & E & est & HL & HEd & Eest & Hest & HV & _); auto.
  { intros p Hp. destruct (H12 p Hp); lia. }
  apply HV. unfold within. assert (EQ : E = est).
  2:{ subst est. rewrite dist_0. apply Rmult_le_pos; auto. apply sqrt_pos. }
  assert (HN : 0 < length ns * n) by (destruct ns; [congruence|]; cbn; lia).
  destruct (HX (length ns * n) (fun q => pow_cs (nth (q / n) ns 0) (vget A (q mod n)) (vget B (q mod n))) L HN) as [est' [E1 [_ E2]]].
  { intros q _. unfold pow_cs. destruct (_ =? 1); cbn; lia. }
  { split; [apply HL|]. intros q j Hq Hj. assert (Ha : q / n < length ns) by (apply Nat.div_lt_upper_bound; lia). assert (Hi : q mod n < n) by (apply Nat.mod_upper_bound; lia).
    rewrite (Nat.div_mod q n) at 1 by lia. rewrite (Nat.mul_comm n). rewrite (proj2 HL) by auto. rewrite HE by auto. unfold pow_cs.
    destruct (H12 (nth (q / n) ns 0)) as [-> | ->]; [now apply nth_In| |]; cbn [Nat.eqb]; rewrite ?peval_2, ?peval_3; cbn; ring. }
  rewrite Eest in E1. inversion E1; subst est'. apply (mat_ext (length ns * n) k); auto; [apply HEd|]. intros q j Hq Hj.
  assert (Ha : q / n < length ns) by (apply Nat.div_lt_upper_bound; lia). assert (Hi : q mod n < n) by (apply Nat.mod_upper_bound; lia).
  specialize (E2 q j Hq Hj). cbn beta in E2. rewrite (Nat.div_mod q n) at 1 by lia. rewrite (Nat.mul_comm n). rewrite (proj2 HEd) by auto.
  assert (DB : mget D (q mod n) j = vget B (q mod n)) by (eapply uniqueness_limite; [apply DD; auto|apply peval_2_der]). rewrite DB, HE by auto.
  unfold pow_cs in E2. destruct (H12 (nth (q / n) ns 0)) as [E0|E0]; [now apply nth_In| |]; rewrite E0 in E2 |- *; cbn [Nat.eqb] in E2.
  - rewrite (uniqueness_limite _ _ _ _ E2 (peval_2_der _ _ _)). cbn. ring.
  - rewrite (uniqueness_limite _ _ _ _ E2 (peval_3_der _ _ _ _)). cbn. ring.
Qed.
Lemma quad_affine n k times t A B Q tol : 0 < n -> 0 < k -> exact_on_quadratics k times t ->
  is_mat n k Q -> (forall i j, i < n -> j < k -> mget Q i j = (vget A i + vget B i * times j)%R) -> (0 <= tol)%R ->
  v_lifter quad_lifter (M Q) (Some t) tol = Ok tt.
Proof.
  intros. rewrite (quad_verify n k) by auto. eapply (affine_verified n k times t [1; 2] A B); eauto; [discriminate|intros p [<-|[<-|[]]]; auto|left; auto].
Qed.

(* ---- states with one dimension ---- *)
Lemma nconcat_nv f v : forall orders : vec, orders <> [] -> exists L, nconcat (map (fun p => nmap (f p) (finite (V v))) orders) = Ok (NV L).
Proof.
  intros orders. induction orders as [|p orders IH]; [congruence|]. intros _. destruct orders as [|q orders]; [eexists; reflexivity|].
  destruct IH as [L EL]; [discriminate|]. cbn [map] in *. change (nconcat (nmap (f p) (finite (V v)) :: nmap (f q) (finite (V v)) :: map (fun p => nmap (f p) (finite (V v))) orders))
    with (do b <- nconcat (nmap (f q) (finite (V v)) :: map (fun p => nmap (f p) (finite (V v))) orders); nappend (nmap (f p) (finite (V v))) b). rewrite EL. eexists. reflexivity.
Qed.
Lemma flat_states v t tol : (forall orders, orders <> [] -> v_lifter (poly_lifter orders) (V v) t tol = Err IndexError) /\ v_lifter quad_lifter (V v) t tol = Err IndexError.
Proof.
  split; [|reflexivity]. intros orders Ho. unfold v_lifter. cbn [vl_lift poly_lifter]. unfold poly_lift. destruct (nconcat_nv (fun p x => npow x p) v orders Ho) as [L ->]. reflexivity.
Qed.
(* ---- what an accepted lifter satisfies ---- *)
Lemma forallb_combine {A B} (f : A * B -> bool) da db : forall (a : list A) (b : list B), forallb f (combine a b) = true -> forall i, i < length a -> i < length b -> f (nth i a da, nth i b db) = true.
Proof.
  induction a as [|x a IH]; intros b H i Ha Hb; [cbn in Ha; lia|]. destruct b as [|y b]; [cbn in Hb; lia|]. cbn [combine forallb] in H. apply andb_prop in H. destruct H as [H1 H2].
  destruct i as [|i]; [exact H1|]. cbn [nth]. apply IH; auto; cbn in *; lia.
Qed.
Lemma nclose_inv x y : nclose x y = true -> exists z, x = F z /\ (Rabs (z - y) <= / 10 ^ 8 + / 10 ^ 5 * Rabs y)%R.
Proof. destruct x as [z| | |]; try discriminate. cbn. intros H. exists z. split; auto. unfold rleb in H. destruct (Rle_dec _ _); [auto|discriminate]. Qed.
Lemma nallclose_nears n k W Q : is_mat n k Q -> length W = n -> (forall row, In row W -> length row = k) -> nallclose (NM W) (M Q) = true -> nears n k (NM W) Q.
Proof.
  intros HQ HW HR H i j Hi Hj. cbn in H. pose proof (forallb_combine _ [] [] W Q H i) as H1. cbn [fst snd] in H1.
  specialize (H1 ltac:(lia) ltac:(rewrite (is_mat_len _ _ _ HQ); lia)).
  pose proof (forallb_combine _ SpecLift.NaN 0%R _ _ H1 j) as H2. cbn [fst snd] in H2. apply nclose_inv in H2.
  - exact H2.
  - rewrite HR; auto. apply nth_In. lia.
  - destruct HQ as [Q1 Q2]. rewrite Forall_forall in Q2. rewrite (Q2 (nth i Q [])); auto. apply nth_In. lia.
Qed.
Lemma fin_inv v w : mapM fin1 v = Ok w -> v = map F w.
Proof.
  revert w. induction v as [|x v IH]; intros w H; [inversion H; reflexivity|]. cbn [mapM] in H. destruct x as [x| | |]; try discriminate. cbn [fin1] in H.
  destruct (mapM fin1 v) as [w'|] eqn:E; [|discriminate]. inversion H; subst. cbn. now rewrite (IH w' eq_refl).
Qed.
Lemma nfinite_inv m A : nfinite (NM m) = Ok A -> NM m = finite (M A).
Proof.
  cbn. intros H. f_equal. revert A H. induction m as [|v m IH]; intros A H; [inversion H; reflexivity|]. cbn [mapM] in H. destruct (mapM fin1 v) as [w|] eqn:E; [|discriminate]. destruct (mapM (mapM fin1) m) as [A'|] eqn:E'; [|discriminate]. inversion H; subst. cbn. rewrite (fin_inv v w E), (IH A'); auto.
Qed.
Lemma nshape_inv A m : nshape_eqb A (NM m) = true -> exists a, A = NM a /\ length a = length m /\ length (hd [] a) = length (hd [] m).
Proof. destruct A as [v|a]; cbn; [discriminate|]. intros H. apply andb_prop in H. destruct H as [H1 H2]. exists a. split; auto. split; now apply Nat.eqb_eq. Qed.
Lemma rassert_true b u : rassert b = Ok u -> b = true.
Proof. destruct b; [auto|discriminate]. Qed.
Lemma lifter_accepted o n k Q t tol : 0 < n -> is_mat n k Q -> v_lifter o (M Q) t tol = Ok tt -> lifter_checked o n k Q t tol.
Proof.
  intros Hn HQ H. unfold v_lifter in H. take H L0 EL. destruct L0 as [v|L]; cbn [nshape1 bind] in H; [discriminate|]. cbn [ashape1 bind] in H.
  take H u1 R1. apply rassert_true in R1. apply Nat.eqb_eq in R1. rewrite (ncols_is_mat n k Q HQ Hn) in R1. take H W0 EW. take H u2 R2. apply rassert_true in R2.
  apply nshape_inv in R2. destruct R2 as (W & -> & LW & HW). rewrite map_length, (is_mat_len _ _ _ HQ) in LW. rewrite hd_map_F, (ncols_is_mat n k Q HQ Hn) in HW. take H u3 R3. apply rassert_true in R3.
  exists L, W. do 5 (split; [solve [auto]|]). split; [intros HR; now apply nallclose_nears|]. intros dd Edd. rewrite Edd in H. take H X EX. destruct t as [t|]; [|discriminate].
  take H D ED. take H E0 EE. take H u4 R4. apply rassert_true in R4. apply nshape_inv in R4. destruct R4 as (E & -> & _ & _). take H Lf ELf. take H est Eest. take H Ef EEf.
  apply rassert_true in H. exists t, D, Lf, Ef, est. do 2 (split; [solve [auto]|]). split; [rewrite <- (nfinite_inv E Ef EEf); auto|]. split; [now apply nfinite_inv|]. split; auto.
  intros N HE HS Ht. apply (exceeds_false N k); auto. now destruct (exceeds Ef est tol).
Qed.
(* ---- negative states without the first power ---- *)
Lemma inv_not_int p : 2 <= p -> is_int (1 / INR p) = false.
Proof.
  intros Hp. destruct (is_int (1 / INR p)) eqn:E; auto. apply is_int_ok in E. destruct E as [z Ez]. assert (P : (2 <= INR p)%R) by (apply (le_INR 2) in Hp; exact Hp).
  assert (A : (0 < 1 / INR p < 1)%R). { split; [apply Rdiv_lt_0_compat; lra|]. apply (Rmult_lt_reg_r (INR p)); [lra|]. unfold Rdiv. rewrite Rmult_assoc, Rinv_l; lra. }
  rewrite Ez in A. destruct A as [A1 A2]. apply lt_IZR in A1, A2. lia.
Qed.
Lemma root_far p x : 2 <= p -> (x <= - (/ 10 ^ 8))%R -> nclose (npow (npow (F x) (INR p)) (1 / INR p)) x = false.
Proof.
  intros Hp Hx. assert (E8 : (0 < / 10 ^ 8)%R) by (apply Rinv_0_lt_compat; apply pow_lt; lra). assert (P : (2 <= INR p)%R) by (apply (le_INR 2) in Hp; exact Hp). destruct (Nat.Even_or_Odd p) as [[m Em]|[m Em]].
  - assert (E : npow (F x) (INR p) = npow (F (- x)) (INR p)). { rewrite !npow_nat, Em, !pow_mult. f_equal. f_equal. ring. }
    rewrite E. assert (R : npow (npow (F (- x)) (INR p)) (1 / INR p) = F (- x)%R) by (apply root_power; [lra|lra|left; lra]). rewrite R. cbn. unfold rleb. destruct (Rle_dec _ _) as [K|]; auto.
    exfalso. rewrite (Rabs_left1 x), (Rabs_pos_eq (- x - x)) in K by lra. assert (E5 : (/ 10 ^ 5 <= / 2)%R) by (apply Rinv_le_contravar; [lra|cbn; lra]). nra.
  - rewrite npow_nat. rewrite npow_neg_nan; [reflexivity| |now apply inv_not_int]. rewrite Em. rewrite Nat.add_1_r. cbn [pow]. rewrite pow_mult.
    assert (0 < (x ^ 2) ^ m)%R by (apply pow_lt; cbn; rewrite Rmult_1_r; apply Rsqr_pos_lt; lra). nra.
Qed.
Lemma nallclose_far W Q i j : i < length W -> i < length Q -> j < length (nth i W []) -> j < length (nth i Q []) -> nclose (nth j (nth i W []) SpecLift.NaN) (mget Q i j) = false -> nallclose (NM W) (M Q) = false.
Proof.
  intros H1 H2 H3 H4 H. destruct (nallclose (NM W) (M Q)) eqn:E; auto. cbn in E. pose proof (forallb_combine _ [] [] W Q E i H1 H2) as E1. cbn [fst snd] in E1.
  pose proof (forallb_combine _ SpecLift.NaN 0%R _ _ E1 j H3 H4) as E2. cbn [fst snd] in E2. unfold mget, vget in H. congruence.
Qed.
Lemma negative_states n k ns Q t tol i j : 0 < n -> is_mat n k Q -> ns <> [] -> (forall p, In p ns -> 2 <= p) -> i < n -> j < k -> (mget Q i j <= - (/ 10 ^ 8))%R ->
  v_lifter (poly_lifter (map INR ns)) (M Q) t tol = Err VerificationError.
Proof.
  intros Hn HQ Hne H2 Hi Hj Hx. assert (PQ : proper (M Q)) by (exists n, k; auto). assert (NO := ns_ne ns Hne). unfold v_lifter. cbn [vl_lift vl_unlift vl_ddts poly_lifter].
  rewrite (lift_blk n k ns Q) by auto. cbn [bind nshape1 finite ashape1]. rewrite hd_map_F.
  rewrite (ncols_is_mat _ k (pow_blk n k ns Q) (proj1 (pow_spec n k ns Q)) (len_pos n ns Hn Hne)), (ncols_is_mat n k Q HQ Hn), Nat.eqb_refl. cbn [rassert bind].
  change (NM (map (map F) (pow_blk n k ns Q))) with (finite (M (pow_blk n k ns Q))).
  assert (EB : blockarr (M Q) (fun p i j => npow (F (SpecLift.aget (M Q) i j)) p) (map INR ns) = finite (M (pow_blk n k ns Q))).
  { pose proof (lift_blk n k ns Q Hn HQ Hne) as E. rewrite poly_lift_ok in E by auto. congruence. }
  rewrite <- EB. unfold poly_unlift. rewrite nsplit_blocks by auto. cbn [bind]. destruct (index1 (map INR ns)) as [a|] eqn:EI.
  { exfalso. apply index1_some, nth_error_In, in_map_iff in EI. destruct EI as [p [E1 Hp]]. apply (INR_eq p 1) in E1. specialize (H2 p Hp). lia. }
  destruct ns as [|p ns]; [congruence|]. assert (Hp : 2 <= p) by (apply H2; left; auto).
  rewrite (proj1 (first_root_ok (M Q) (fun p i j => npow (F (SpecLift.aget (M Q) i j)) p) (map INR (p :: ns))) (INR p)).
  2:{ exists [], (map INR ns). split; auto. split; [apply not_0_INR; lia|intros x []]. }
  cbn [bind oneblock SpecLift.aget]. assert (LQ := is_mat_len _ _ _ HQ). destruct (rassert (nshape_eqb _ _)) as [u|e] eqn:R; cbn [bind].
  2:{ destruct (nshape_eqb _ _); [discriminate|]. cbn in R. congruence. }
  rewrite (nallclose_far _ _ i j); [reflexivity| | | | |].
  - rewrite map_length, seq_length. unfold nrows. lia.
  - lia.
  - erewrite nth_indep; [rewrite map_nth with (d := 0)|rewrite map_length, seq_length; unfold nrows; lia]. rewrite map_length, seq_length, (ncols_is_mat n k Q HQ Hn). lia.
  - destruct HQ as [Q1 Q2]. rewrite Forall_forall in Q2. rewrite (Q2 (nth i Q [])); auto. apply nth_In. lia.
  - rewrite (ncols_is_mat n k Q HQ Hn). unfold nrows. rewrite LQ.
    rewrite (nth_indep _ [] ((fun i => map (fun j => npow (npow (F (mget Q i j)) (INR p)) (1 / INR p)) (seq 0 k)) 0)) by (rewrite map_length, seq_length; lia).
    rewrite (map_nth (fun i => map (fun j => npow (npow (F (mget Q i j)) (INR p)) (1 / INR p)) (seq 0 k))), seq_nth by lia.
    rewrite (nth_indep _ SpecLift.NaN ((fun j => npow (npow (F (mget Q (0 + i) j)) (INR p)) (1 / INR p)) 0)) by (rewrite map_length, seq_length; lia).
    rewrite (map_nth (fun j => npow (npow (F (mget Q (0 + i) j)) (INR p)) (1 / INR p))), seq_nth by lia. now apply root_far.
Qed.

(* ---- a power of zero and a state that is zero ---- *)
Lemma mapM_bad {A B} (f : A -> res B) e l x : (forall y, In y l -> (exists b, f y = Ok b) \/ f y = Err e) -> In x l -> f x = Err e -> mapM f l = Err e.
Proof.
  induction l as [|y l IH]; intros H Hx E; [destruct Hx|]. cbn [mapM]. destruct (H y (or_introl eq_refl)) as [[b Eb]|Eb]; rewrite Eb; [|reflexivity].
  destruct Hx as [->|Hx]; [congruence|]. rewrite IH; auto. intros z Hz. apply H. now right.
Qed.
Lemma fin_total v : (exists w, mapM fin1 v = Ok w) \/ mapM fin1 v = Err ValueError.
Proof.
  induction v as [|x v IH]; [left; eexists; reflexivity|]. cbn [mapM]. destruct x; cbn [fin1]; auto. destruct IH as [[w ->]| ->]; [left; eexists; reflexivity|now right].
Qed.
Lemma nfinite_bad m i j : i < length m -> j < length (nth i m []) -> (forall x, nth j (nth i m []) SpecLift.NaN <> F x) -> nfinite (NM m) = Err ValueError.
Proof.
  intros Hi Hj H. cbn. apply mapM_bad with (x := nth i m []); [intros; apply fin_total|now apply nth_In|]. apply mapM_bad with (x := nth j (nth i m []) SpecLift.NaN); [|now apply nth_In|].
  - intros y _. destruct y; cbn; eauto.
  - destruct (nth j (nth i m []) SpecLift.NaN) as [x| | |]; auto. now destruct (H x).
Qed.
Lemma zero_order n k ns Q t tol D i j : 0 < n -> is_mat n k Q -> In 1 ns -> In 0 ns -> i < n -> j < k -> mget Q i j = 0%R -> ddt (M Q) [t] [] = Ok D ->
  v_lifter (poly_lifter (map INR ns)) (M Q) (Some t) tol = Err ValueError.
Proof.
  intros Hn HQ H1 H0 Hi Hj Hx HD. assert (Hne : ns <> []) by (intros ->; destruct H1). assert (PQ : proper (M Q)) by (exists n, k; auto). assert (NO := ns_ne ns Hne).
  destruct (ddt_total n k Q t D Hn HQ HD) as [HDm HT]. destruct (HT _ (pow_blk n k ns Q) (len_pos n ns Hn Hne) (proj1 (pow_spec n k ns Q))) as [est [EE HE]].
  unfold v_lifter. cbn [vl_lift vl_unlift vl_ddts poly_lifter].
  rewrite (lift_blk n k ns Q) by auto. cbn [bind nshape1 finite ashape1]. rewrite hd_map_F.
  rewrite (ncols_is_mat _ k (pow_blk n k ns Q) (proj1 (pow_spec n k ns Q)) (len_pos n ns Hn Hne)), (ncols_is_mat n k Q HQ Hn), Nat.eqb_refl. cbn [rassert bind].
  change (NM (map (map F) (pow_blk n k ns Q))) with (finite (M (pow_blk n k ns Q))).
  assert (EU : poly_unlift (map INR ns) (finite (M (pow_blk n k ns Q))) = Ok (finite (M Q))).
  { apply (poly_unlift_lift (map INR ns) (M Q)); auto; [now apply lift_blk|]. left. apply in_map_iff. exists 1. auto. }
  rewrite EU. cbn [bind]. change (NM (map (map F) Q)) with (finite (M Q)).
  rewrite (nshape_fin n k Q Q) by auto. cbn [rassert bind]. rewrite nallclose_refl. cbn [rassert bind].
  rewrite (poly_lift_ddts_ok _ (M Q) (M Q)) by (auto; exists n, k; auto). cbn [bind]. rewrite HD. cbn [bind].
  rewrite (poly_lift_ddts_ok _ (M Q) (M D)) by (auto; exists n, k; auto). cbn [bind].
  set (g := fun (p : R) (i j : nat) => _). destruct (rassert (nshape_eqb _ _)) as [u|e] eqn:R; cbn [bind].
  2:{ exfalso. clear - R Hn HQ Hne. assert (nshape_eqb (blockarr (M Q) g (map INR ns)) (finite (M (pow_blk n k ns Q))) = true) as E; [|rewrite E in R; discriminate].
    cbn [blockarr finite nshape_eqb]. rewrite !map_length, hd_map_F, (is_mat_len _ _ _ (proj1 (pow_spec n k ns Q))), (ncols_is_mat _ k (pow_blk n k ns Q) (proj1 (pow_spec n k ns Q)) (len_pos n ns Hn Hne)).
    rewrite (concat_length_uniform (nrows Q)). 2:{ intros l Hl. apply in_map_iff in Hl. destruct Hl as [p [<- _]]. now rewrite map_length, seq_length. }
    rewrite !map_length. unfold nrows. rewrite (is_mat_len _ _ _ HQ), (ncols_is_mat n k Q HQ Hn), Nat.eqb_refl. cbn [andb]. destruct ns as [|p ns]; [congruence|]. destruct n as [|n]; [lia|].
    cbn. now rewrite map_length, seq_length, Nat.eqb_refl. }
  change (NM (map (map F) (pow_blk n k ns Q))) with (finite (M (pow_blk n k ns Q))). rewrite nfinite_finite. cbn [bind]. rewrite EE. cbn [bind].
  apply (In_nth _ _ 0) in H0. destruct H0 as [a [Ha Ea]]. cbn [blockarr].
  assert (G := blockarr_get (M Q) g (map INR ns) a i j). cbn [SpecLift.arows SpecLift.acols blockarr nget] in G. unfold nrows in G. rewrite map_length, (is_mat_len _ _ _ HQ), (ncols_is_mat n k Q HQ Hn) in G. specialize (G Ha Hi Hj).
  assert (GN : forall x, g (nth a (map INR ns) 0%R) i j <> F x).
  { intros x. change 0%R with (INR 0). rewrite map_nth, Ea. unfold g. cbn [SpecLift.aget]. rewrite Hx. replace (INR 0 - 1)%R with (-1)%R by (cbn; lra). rewrite npow_zero_neg by lra.
    replace (INR 0) with 0%R by reflexivity. cbn. unfold sgn. destruct (Rlt_dec 0 0) as [K|_]; [lra|]. cbn. discriminate. }
  rewrite (ncols_is_mat n k Q HQ Hn). unfold nrows. rewrite (is_mat_len _ _ _ HQ).
  rewrite (nfinite_bad _ (a * n + i) j); [reflexivity| | |intros x; rewrite G; apply GN].
  - rewrite (concat_length_uniform n); [rewrite !map_length; nia|]. intros l Hl. apply in_map_iff in Hl. destruct Hl as [p [<- _]]. now rewrite map_length, seq_length.
  - match goal with |- j < length (nth _ ?m []) => assert (RL : forall r, In r m -> length r = k) end.
    { intros r Hr. apply in_concat in Hr. destruct Hr as [l [Hl Hr]]. apply in_map_iff in Hl. destruct Hl as [p [<- _]]. apply in_map_iff in Hr. destruct Hr as [q [<- _]]. now rewrite map_length, seq_length. }
    rewrite RL; auto. apply nth_In. rewrite (concat_length_uniform n); [rewrite !map_length; nia|]. intros l Hl. apply in_map_iff in Hl. destruct Hl as [p [<- _]]. now rewrite map_length, seq_length.
Qed.
(* ---- the statements about states that are affine in time ---- *)
Lemma quad_affine_times n k t A B Q tol : 0 < n -> 3 <= k -> length t = k -> (forall j, S j < k -> (vget t j < vget t (S j))%R) ->
  is_mat n k Q -> (forall i j, i < n -> j < k -> mget Q i j = (vget A i + vget B i * vget t j)%R) -> (0 <= tol)%R ->
  v_lifter quad_lifter (M Q) (Some (AArray (V t))) tol = Ok tt.
Proof. intros. apply (quad_affine n k (vget t) (AArray (V t)) A B); auto; [lia|]. now apply exact_times. Qed.
Lemma quad_affine_step n k t0 dt A B Q tol : 0 < n -> 3 <= k -> dt <> 0%R ->
  is_mat n k Q -> (forall i j, i < n -> j < k -> mget Q i j = (vget A i + vget B i * (t0 + INR j * dt))%R) -> (0 <= tol)%R ->
  v_lifter quad_lifter (M Q) (Some (AFloat dt)) tol = Ok tt.
Proof. intros. apply (quad_affine n k (grid t0 dt) (AFloat dt) A B); auto; [lia|]. now apply exact_step. Qed.
Lemma quad_no_time n k Q tol : 0 < n -> is_mat n k Q -> v_lifter quad_lifter (M Q) None tol = Err ValueError.
Proof. intros Hn HQ. rewrite (quad_verify n k) by auto. apply (poly_no_time n k [1; 2] Q); auto; [discriminate|intros p [<-|[<-|[]]]; lia|left; left; auto]. Qed.
Lemma poly_verdict_all n k ns Q t tol D : 0 < n -> is_mat n k Q -> ns <> [] -> (forall p, In p ns -> 0 < p) ->
  In 1 ns \/ (forall i j, i < n -> j < k -> (0 <= mget Q i j)%R) -> (0 <= tol)%R -> ddt (M Q) [t] [] = Ok D ->
  exists L E est, powers n k ns Q L /\ power_derivatives n k ns Q D E /\ ddt (M L) [t] [] = Ok est /\ is_mat (length ns * n) k est /\
  (v_lifter (poly_lifter (map INR ns)) (M Q) (Some t) tol = Ok tt <-> within (length ns * n) k tol E est) /\
  (v_lifter (poly_lifter (map INR ns)) (M Q) (Some t) tol = Err VerificationError <-> ~ within (length ns * n) k tol E est).
Proof. intros. now apply poly_verdict. Qed.
Lemma poly_no_time_all n k ns Q tol : 0 < n -> is_mat n k Q -> ns <> [] -> (forall p, In p ns -> 0 < p) ->
  In 1 ns \/ (forall i j, i < n -> j < k -> (0 <= mget Q i j)%R) -> v_lifter (poly_lifter (map INR ns)) (M Q) None tol = Err ValueError.
Proof. intros. now apply (poly_no_time n k). Qed.

(* VerifyTf.v -- what verify() of transformers accepts, and what it does not. *)
From Coq Require Import ZArith Lra Psatz.
From Verif Require Import MatAlg LinAlg PreProofs PreLocs PreFinal PreHeapProofs GalProofs VerifyProofs.
From Verif Require EqBasis.
From Verif Require Import SpecVerify.
#[local] Open Scope nat_scope.

(* ---- rows ------------------------------------------------------------------------------------------------------ *)
Lemma mget_map2 (f : R * R -> R -> R) ab : forall A n k i j, is_mat n k A -> length ab = n -> i < n -> j < k ->
  mget (map2 (fun p row => map (f p) row) ab A) i j = f (nth i ab (0, 0)%R) (mget A i j).
Proof.
  induction ab as [|p ab IH]; intros [|r A] n k i j [HL HA] Hab Hi Hj; cbn in HL, Hab; try lia. destruct n as [|n]; [lia|].
  apply Forall_cons_iff in HA. destruct HA as [Hr HA]. destruct i as [|i].
  - unfold mget. cbn [map2 nth]. unfold vget. rewrite (nth_map_in (f p) r j 0%R 0%R) by lia. reflexivity.
  - change (mget (map2 (fun p row => map (f p) row) ab A) i j = f (nth i ab (0, 0)%R) (mget A i j)). assert (HA' : is_mat n k A) by (split; [lia|auto]). apply (IH A n k); auto; lia.
Qed.
Lemma is_mat_map2 (f : R * R -> R -> R) ab : forall A n k, is_mat n k A -> length ab = n -> is_mat n k (map2 (fun p row => map (f p) row) ab A).
Proof.
  induction ab as [|p ab IH]; intros [|r A] n k [HL HA] Hab; cbn in HL, Hab; try lia; [split; auto; cbn; lia|].
  destruct n as [|n]; [lia|]. apply Forall_cons_iff in HA. destruct HA as [Hr HA]. destruct (IH A n k) as [H1 H2]; [split; auto|lia|]. split; [cbn; lia|].
  constructor; auto. now rewrite map_length.
Qed.
Lemma C66_affine t n : trained n t -> exists a b, row_affine n a b (transform t) (transform_ddts t).
Proof.
  intros H. destruct (all_rowaff t n H) as [ab [L E]]. exists (map fst ab), (map snd ab). split; [unfold is_vec; now rewrite map_length|]. split; [unfold is_vec; now rewrite map_length|].
  intros k A HA. destruct (E A (is_mat_len _ _ _ HA)) as [E1 E2]. exists (aff ab A), (lin ab A). split; auto. split; [apply is_mat_map2; auto|]. split; auto. split; [apply is_mat_map2; auto|].
  intros i j Hi Hj. unfold aff, lin. rewrite (mget_map2 (fun p x => fst p * x + snd p)%R ab A n k) by auto. rewrite (mget_map2 (fun p x => fst p * x)%R ab A n k) by auto.
  unfold vget. rewrite (nth_map_in fst ab i 0%R (0, 0)%R) by lia. rewrite (nth_map_in snd ab i 0%R (0, 0)%R) by lia. auto.
Qed.
(* ---- the checks -------------------------------------------------------------------------------------------------- *)
Lemma aclose_near n k A B : is_mat n k A -> 0 < n -> aclose (M A) (M B) = true <-> near n k A B.
Proof. intros HA Hn. cbn [aclose]. rewrite EqBasis.allclose_true. unfold nrows. rewrite (is_mat_len _ _ _ HA), (ncols_is_mat n k A HA Hn). reflexivity. Qed.
Lemma aclose_refl a : aclose a a = true.
Proof. destruct a; apply allclose_refl. Qed.
Lemma shape_refl a : shape_eqb a a = true.
Proof. destruct a; cbn; rewrite ?Nat.eqb_refl; auto. Qed.
Lemma shape_mat n k A B : is_mat n k A -> is_mat n k B -> shape_eqb (M A) (M B) = true.
Proof.
  intros HA HB. cbn. unfold nrows. rewrite (is_mat_len _ _ _ HA), (is_mat_len _ _ _ HB), Nat.eqb_refl. cbn. destruct n as [|n].
  - destruct HA as [HA _], HB as [HB _]. destruct A, B; try discriminate. reflexivity.
  - rewrite (ncols_is_mat (S n) k A HA), (ncols_is_mat (S n) k B HB) by lia. apply Nat.eqb_refl.
Qed.
Lemma fnorm_norm n k B : is_mat n k B -> fnorm B = norm n k B.
Proof. intros HB. unfold fnorm, norm, fro. rewrite (mnorm2_bsum n k B HB). reflexivity. Qed.
Lemma fnorm_dist n k A B : is_mat n k A -> is_mat n k B -> fnorm (msub A B) = distance n k A B.
Proof.
  intros HA HB. unfold fnorm, distance, fro. rewrite (mnorm2_bsum n k) by mt. f_equal. apply bsum_ext. intros i Hi. apply bsum_ext. intros j Hj.
  rewrite (mget_msub n k) by auto. reflexivity.
Qed.
Lemma exceeds_false n k A B tol : is_mat n k A -> is_mat n k B -> (0 <= tol)%R -> exceeds A B tol = false <-> (distance n k A B <= tol * norm n k B)%R.
Proof.
  intros HA HB Ht. unfold exceeds. rewrite (fnorm_norm n k) by auto. rewrite (fnorm_dist n k) by auto.
  assert (P : (0 <= norm n k B)%R) by apply sqrt_pos. assert (Q : (0 <= distance n k A B)%R) by apply sqrt_pos. destruct (Req_EM_T (norm n k B) 0) as [E|E].
  - rewrite E, Rmult_0_r. destruct (Req_EM_T (distance n k A B) 0); split; auto; intros; try lra; discriminate.
  - assert (P' : (0 < norm n k B)%R) by lra. destruct (Rlt_dec tol (distance n k A B / norm n k B)) as [L|L]; split; try discriminate; auto; intros K.
    + exfalso. apply (Rmult_lt_compat_r _ _ _ P') in L. unfold Rdiv in L. rewrite Rmult_assoc, Rinv_l, Rmult_1_r in L by lra. lra.
    + apply Rnot_lt_le in L. apply (Rmult_le_compat_r _ _ _ P) in L. unfold Rdiv in L. rewrite Rmult_assoc, Rinv_l, Rmult_1_r in L by lra. lra.
Qed.
Lemma take_mat n k A idx : is_mat n k A -> Forall (fun i => i < n) idx -> is_mat (length idx) k (take_at [] A idx).
Proof.
  intros [HL HA] Hi. split; [apply take_at_length|]. unfold take_at. apply Forall_map. eapply Forall_impl; [|exact Hi]. cbn. intros i H.
  rewrite Forall_forall in HA. apply HA. apply nth_In. lia.
Qed.
(* a value computed in place has the shape of the argument *)
Lemma resp_shape op f A v n k : resp true op f -> is_mat n k A -> f (M A) = Ok v -> exists B, v = M B /\ is_mat n k B.
Proof.
  intros R HA E. destruct (new_step {| hcell := fun _ => 0%R; hnext := 0 |} (M A)) as (h1 & x & _ & Rx & Wx & _ & _).
  destruct (R h1 x Wx) as (h2 & _ & P). rewrite Rx, E in P. destruct P as (y & _ & P2 & _ & ->). destruct (rd_shape h1 h2 x A Rx) as (B & EB & HB). exists B. split; [congruence|auto].
Qed.
(* ---- _verify_locs ------------------------------------------------------------------------------------------------- *)
Definition locs_val (I : option locsel -> arr -> res arr) (draw : nat -> list nat) (s a : arr) : res unit :=
  let idx := draw (alen s) in do Z <- I (Some (zlocs idx)) (asel idx a);
  do _ <- rassert (shape_eqb Z (asel idx s)); rassert (aclose Z (asel idx s)).
Lemma h_locs_sim inv I draw : (forall l, resp false (inv l) (I l)) -> forall h x y, wf h x -> wf h y ->
  exists h', h_locs inv draw x y h = (h', locs_val I draw (rd h x) (rd h y)) /\ unchanged h h'.
Proof.
  intros R h x y Wx Wy. unfold h_locs, locs_val, hread at 1 2. set (idx := draw (alen (rd h x))).
  destruct (new_step h (asel idx (rd h y))) as (h1 & w & E1 & Rw & Ww & U1 & _). unfold hbind at 1. rewrite E1.
  destruct (R (Some (zlocs idx)) h1 w Ww) as (h2 & U2 & P2). rewrite Rw in P2.
  assert (V2 : unchanged h h2) by (apply (unch_trans _ h1); auto; intros z Hz; apply U2; auto; discriminate).
  destruct (I (Some (zlocs idx)) (asel idx (rd h y))) as [Z|e]; cbn [bind]; [|exists h2; split; auto; unfold hbind at 1; rewrite P2; reflexivity].
  destruct P2 as (z & P2 & Rz & _). exists h2. split; auto. unfold hbind at 1. rewrite P2. unfold hread. rewrite Rz. unfold check_at. rewrite hassert_r.
  destruct (shape_eqb Z (asel idx (rd h x))); cbn [rassert bind]; auto. unfold hassert, rassert. destruct (aclose Z (asel idx (rd h x))); reflexivity.
Qed.
Section User.
Variables (o : vobj) (n : nat) (T : arr -> res arr) (I : option locsel -> arr -> res arr) (draw : nat -> list nat) (X : nat -> mat) (tol : R).
Hypothesis Hdim : vo_dim o = Some n.
Hypothesis Hn : 0 < n.
Hypothesis HX : is_mat n 20 (X n).
Hypothesis RT : respects_inplace (vo_transform o) (no_output T).
Hypothesis RI : forall l, respects_inplace (vo_inverse o l) (no_output (I l)).
Hypothesis Elocs : vo_locs o = h_locs (vo_inverse o) draw.
Hypothesis Hdraw : Forall (fun i => i < n) (draw n).
Lemma user_sim Dd h : match vo_ddts o, Dd with Some dd0, Some D => respects_inplace dd0 (no_output D) | None, None => True | _, _ => False end ->
  exists h', h_verify o X tol h = (h', verify_val T (I None) Dd (locs_val I draw) tol (X n)) /\ unchanged h h'.
Proof.
  intros HD. apply verify_sim; auto.
  - now apply respects_resp.
  - intros fl. apply respects_resp, RI.
  - destruct (vo_ddts o), Dd; auto. intros fl. now apply respects_resp.
  - rewrite Elocs. apply h_locs_sim. intros l. apply respects_resp, RI.
  - now apply respects_resp.
Qed.
(* the verdict, for methods that return *)
Lemma user_verdict D dd0 B C Z E DX DB h : vo_ddts o = Some dd0 -> respects_inplace dd0 (no_output D) -> (0 <= tol)%R ->
  T (M (X n)) = Ok B -> I None B = Ok (M C) -> I (Some (zlocs (draw n))) (asel (draw n) B) = Ok (M Z) -> (exists v, D (M (X n)) = Ok v) ->
  time_ddt (M (X n)) = Ok DX -> D (M DX) = Ok (M E) -> time_ddt B = Ok DB ->
  exists h' r, h_verify o X tol h = (h', r) /\ unchanged h h' /\ (r = Ok tt \/ r = Err VerificationError) /\
  (r = Ok tt <-> near n 20 C (X n) /\ near (length (draw n)) 20 Z (take_at [] (X n) (draw n)) /\ (distance n 20 E DB <= tol * norm n 20 DB)%R).
Proof.
  intros Ed RD Ht ET EI EZ [v EV] EX ED EB. destruct (user_sim (Some D) h) as (h' & Ev & U); [rewrite Ed; auto|]. exists h', (verify_val T (I None) (Some D) (locs_val I draw) tol (X n)).
  do 2 (split; auto).
  destruct (resp_shape _ _ (X n) B n 20 (respects_resp _ _ true RT) HX ET) as (B' & -> & HB).
  destruct (resp_shape _ _ B' (M C) n 20 (respects_resp _ _ true (RI None)) HB EI) as (C' & EC & HC). injection EC as <-.
  assert (HBl : is_mat (length (draw n)) 20 (take_at [] B' (draw n))) by (apply (take_mat n); auto).
  destruct (resp_shape _ _ (take_at [] B' (draw n)) (M Z) (length (draw n)) 20 (respects_resp _ _ true (RI (Some (zlocs (draw n))))) HBl EZ) as (Z' & EZ' & HZ). injection EZ' as <-.
  assert (EX' : DX = dd (X n)) by (unfold time_ddt in EX; rewrite (ddt_ok n) in EX by auto; congruence). subst DX.
  assert (EB' : DB = dd B') by (unfold time_ddt in EB; rewrite (ddt_ok n) in EB by auto; congruence). subst DB.
  destruct (resp_shape _ _ (dd (X n)) (M E) n 20 (respects_resp _ _ true RD) (dd_mat n _ HX) ED) as (E' & EE' & HE). injection EE' as <-.
  unfold verify_val, rest_val, locs_val, ddt_val. rewrite ET. cbn [bind]. rewrite (shape_mat n 20 B') by auto. cbn [rassert bind]. rewrite EI. cbn [bind]. rewrite (shape_mat n 20 C) by auto. cbn [rassert bind].
  assert (EA : alen (M (X n)) = n) by apply (is_mat_len _ _ _ HX). rewrite EA. cbn [asel] in *. rewrite EZ. cbn [bind].
  assert (HXl : is_mat (length (draw n)) 20 (take_at [] (X n) (draw n))) by (apply (take_mat n); auto). rewrite (shape_mat (length (draw n)) 20 Z) by auto. cbn [rassert bind].
  rewrite EV. cbn [bind]. rewrite ED. cbn [bind]. rewrite (ddt_ok n) by auto. cbn [bind].
  rewrite <- (exceeds_false n 20) by (auto using dd_mat). rewrite <- (aclose_near n 20 C) by auto.
  assert (K : near (length (draw n)) 20 Z (take_at [] (X n) (draw n)) <-> aclose (M Z) (M (take_at [] (X n) (draw n))) = true).
  { destruct (draw n) as [|i idx] eqn:Edr. - split; [|intros _ a b Ha; cbn in Ha; lia]. intros _. cbn [aclose]. destruct Z as [|r Z]; [reflexivity|destruct HZ; discriminate].
    - symmetry. apply aclose_near; auto. cbn. lia. }
  rewrite K. destruct (aclose (M C) (M (X n))); cbn [rassert bind]; [|split; [auto|split; [discriminate|intros (Q & _ & _); discriminate]]].
  destruct (aclose (M Z) (M (take_at [] (X n) (draw n)))); cbn [rassert bind]; [|split; [auto|split; [discriminate|intros (_ & Q & _); discriminate]]].
  destruct (exceeds E (dd B') tol); cbn [negb rassert]; [split; [auto|split; [discriminate|intros (_ & _ & Q); discriminate]]|]. split; [auto|split; auto].
Qed.
Lemma dist_0 k m A : distance k m A A = 0%R.
Proof.
  unfold distance. rewrite <- sqrt_0. f_equal. apply bsum_0. intros i _. apply bsum_0. intros j _. rewrite Rminus_diag_eq by auto. apply Rsqr_0.
Qed.
End User.
(* ---- acceptance ----------------------------------------------------------------------------------------------------- *)
Lemma row_affine_aff n a b T D k A : row_affine n a b T D -> is_mat n k A -> let ab := combine a b in length ab = n /\ T (M A) = Ok (M (aff ab A)) /\ D (M A) = Ok (M (lin ab A)).
Proof.
  intros (Ha & Hb & H) HA ab. assert (Hab : length ab = n) by (unfold ab; rewrite combine_length, Ha, Hb; lia). split; auto.
  destruct (H k A HA) as (B & E & ET & HB & ED & HE & G). rewrite ET, ED.
  assert (N : forall i, nth i ab (0, 0)%R = (vget a i, vget b i)) by (intros i; unfold ab, vget; apply combine_nth; congruence).
  assert (HA1 : is_mat n k (aff ab A)) by (apply is_mat_map2; auto). assert (HA2 : is_mat n k (lin ab A)) by (apply is_mat_map2; auto). split; do 2 f_equal.
  - apply (mat_ext n k); auto. intros i j Hi Hj. destruct (G i j Hi Hj) as [-> _]. unfold aff. rewrite (mget_map2 (fun p x => fst p * x + snd p)%R ab A n k) by auto. now rewrite N.
  - apply (mat_ext n k); auto. intros i j Hi Hj. destruct (G i j Hi Hj) as [_ ->]. unfold lin. rewrite (mget_map2 (fun p x => fst p * x)%R ab A n k) by auto. now rewrite N.
Qed.
Lemma exceeds_self n k A tol : is_mat n k A -> (0 <= tol)%R -> exceeds A A tol = false.
Proof. intros HA Ht. apply (exceeds_false n k); auto. rewrite dist_0. apply Rmult_le_pos; auto. apply sqrt_pos. Qed.
Lemma ddt_val_ok n a b T D X tol B : 0 < n -> is_mat n 20 X -> (0 <= tol)%R -> row_affine n a b T D -> T (M X) = Ok B -> ddt_val tol D X B = Ok tt.
Proof.
  intros Hn HX Ht Hr ET. unfold ddt_val. destruct (row_affine_aff n a b T D 20 X Hr HX) as (L & E1 & E2). rewrite E1 in ET. injection ET as <-. rewrite E2. cbn [bind].
  destruct (row_affine_aff n a b T D 20 (dd X) Hr (dd_mat n X HX)) as (_ & _ & ->). cbn [bind].
  assert (HB : is_mat n 20 (aff (combine a b) X)) by (apply is_mat_map2; auto). rewrite (ddt_ok n) by auto. cbn [bind]. rewrite (dd_aff n) by auto.
  rewrite (exceeds_self n 20); auto. apply is_mat_map2; auto. apply dd_mat; auto.
Qed.
Lemma val_ok n T I0 Dd L tol X B : 0 < n -> is_mat n 20 X -> is_mat n 20 B -> (0 <= tol)%R -> T (M X) = Ok (M B) -> I0 (M B) = Ok (M X) -> L (M X) (M B) = Ok tt ->
  match Dd with Some D => exists a b, row_affine n a b T D | None => True end -> verify_val T I0 Dd L tol X = Ok tt.
Proof.
  intros Hn HX HB Ht ET EI EL HD. unfold verify_val, rest_val. rewrite ET. cbn [bind]. rewrite (shape_mat n 20 B) by auto. cbn [rassert bind]. rewrite EI. cbn [bind].
  rewrite shape_refl, aclose_refl. cbn [rassert bind]. rewrite EL. cbn [bind]. destruct Dd as [D|]; auto. destruct HD as (a & b & HD). eapply ddt_val_ok; eauto.
Qed.
Lemma user_accepts o n T I draw X tol : vo_dim o = Some n -> 0 < n -> is_mat n 20 (X n) -> respects_inplace (vo_transform o) (no_output T) ->
  (forall l, respects_inplace (vo_inverse o l) (no_output (I l))) -> vo_locs o = h_locs (vo_inverse o) draw -> Forall (fun i => i < n) (draw n) ->
  (forall dd0, vo_ddts o = Some dd0 -> exists D a b, respects_inplace dd0 (no_output D) /\ row_affine n a b T D) -> inverse_of n T I -> (0 <= tol)%R ->
  forall h, exists h', h_verify o X tol h = (h', Ok tt) /\ unchanged h h'.
Proof.
  intros Hd Hn HX RT RI EL Hdr HD HI Ht h. destruct (HI 20 (X n) HX) as (B & E1 & HB & E2 & E3).
  assert (G : exists Dd, match vo_ddts o, Dd with Some dd0, Some D => respects_inplace dd0 (no_output D) | None, None => True | _, _ => False end /\
    match Dd with Some D => exists a b, row_affine n a b T D | None => True end).
  { destruct (vo_ddts o) as [dd0|]. - destruct (HD dd0 eq_refl) as (D & a & b & RD & RA). exists (Some D). split; auto. exists a, b. auto. - exists None. auto. }
  destruct G as (Dd & G1 & G2). destruct (user_sim o n T I draw X tol Hd Hn HX RT RI EL Dd h G1) as (h' & E & U). exists h'. split; auto. rewrite E. f_equal.
  apply (val_ok n T (I None) Dd (locs_val I draw) tol (X n) B); auto. unfold locs_val. cbn [alen]. rewrite (is_mat_len _ _ _ HX). rewrite (E3 (draw n) Hdr). cbn [bind].
  rewrite shape_refl, aclose_refl. reflexivity.
Qed.
Lemma selects_z n idx : Forall (fun i => i < n) idx -> selects n (zlocs idx) idx.
Proof. intros H. unfold zlocs, selects. induction H; cbn [map]; constructor; auto. Qed.
Lemma same_shape_mat n k A b : is_mat n k A -> same_shape (M A) b -> exists B, b = M B /\ is_mat n k B.
Proof.
  intros [HL HA] HS. destruct b as [v|B]; [destruct HS|]. exists B. split; auto. cbn in HS. split.
  - rewrite <- (map_length (@length R) B), <- HS, map_length. auto.
  - apply (Forall_map (@length R) (fun m => m = k)). rewrite <- HS. now apply Forall_map.
Qed.
Lemma trained_inverts n t k A : trained n t -> is_mat n k A -> exists B, transform t (M A) = Ok (M B) /\ is_mat n k B /\ inverse_transform t None (M B) = Ok (M A).
Proof.
  intros Ht HA. destruct (C01_all t n Ht (M A) (is_mat_len _ _ _ HA)) as [(b & E1 & E2 & E3) _]. destruct (same_shape_mat n k A b HA E2) as (B & -> & HB). eauto.
Qed.
Lemma flat_inverse_of n t : trained n t -> flat t -> inverse_of n (transform t) (fun l => inverse_transform t l).
Proof.
  intros Ht HF k A HA. destruct (trained_inverts n t k A Ht HA) as (B & E1 & HB & E2). exists B. repeat (split; auto). intros idx Hi.
  apply (C02_flat t n Ht HF (zlocs idx) idx (selects_z n idx Hi)); auto. apply (is_mat_len _ _ _ HB).
Qed.
Lemma h_flat n t rx rl tol h : 0 < n -> trained n t -> flat t -> is_mat n 20 (rx n) -> Forall (fun i => i < n) (rl n) -> (0 <= tol)%R ->
  exists h', h_verify (tf_obj t rl) rx tol h = (h', Ok tt) /\ unchanged h h'.
Proof.
  intros Hn Ht HF HX Hdr Htol. destruct (C08_all t) as (R1 & R2 & R3 & _).
  apply (user_accepts (tf_obj t rl) n (transform t) (fun l => inverse_transform t l) rl rx tol); auto.
  - now apply trained_dim. - unfold tf_obj. cbn. destruct t; auto. destruct HF.
  - cbn. intros dd0 E. injection E as <-. destruct (C66_affine t n Ht) as (a & b & Ha). eauto 6.
  - now apply flat_inverse_of.
Qed.
(* TransformerMulti *)
Definition mlocs_val (l : list tf) (draw : nat -> list nat) (s a : arr) : res unit :=
  match allsome (variable_sizes l) with
  | None => Err TypeError
  | Some ns => if negb (all_same ns) then Ok tt else let idx := draw (nth 0 ns 0) in
      do ss <- multi_split (variable_sizes l) s; do want <- aconcat (map (asel idx) ss);
      do ys <- multi_split (variable_sizes l) a; do ya <- aconcat (map (asel idx) ys);
      do b <- inverse_transform (TMulti l) (Some (zlocs idx)) ya; do _ <- rassert (shape_eqb b want); rassert (aclose b want)
  end.
Lemma lift_r {A B} (r : res A) (k : A -> H B) h : hbind (hlift r) k h = match r with Ok a => k a h | Err e => (h, Err e) end.
Proof. destruct r; reflexivity. Qed.
Lemma hm_locs_sim l draw : forall h x y, wf h x -> wf h y ->
  exists h', hm_locs l draw x y h = (h', mlocs_val l draw (rd h x) (rd h y)) /\ unchanged h h'.
Proof.
  intros h x y Wx Wy. unfold hm_locs, mlocs_val. destruct (allsome (variable_sizes l)) as [ns|]; [|exists h; split; [reflexivity|apply unch_refl]].
  destruct (negb (all_same ns)); [exists h; split; [reflexivity|apply unch_refl]|]. set (idx := draw (nth 0 ns 0)). unfold hread at 1. rewrite lift_r.
  destruct (multi_split (variable_sizes l) (rd h x)) as [ss|]; cbn [bind]; [|exists h; split; [reflexivity|apply unch_refl]]. rewrite lift_r.
  destruct (aconcat (map (asel idx) ss)) as [want|]; cbn [bind]; [|exists h; split; [reflexivity|apply unch_refl]]. unfold hread at 1. rewrite lift_r.
  destruct (multi_split (variable_sizes l) (rd h y)) as [ys|]; cbn [bind]; [|exists h; split; [reflexivity|apply unch_refl]]. rewrite lift_r.
  destruct (aconcat (map (asel idx) ys)) as [ya|]; cbn [bind]; [|exists h; split; [reflexivity|apply unch_refl]].
  destruct (new_step h ya) as (h1 & w & E1 & Rw & Ww & U1 & _). unfold hbind at 1. rewrite E1. destruct (C08_all (TMulti l)) as (_ & _ & R & _).
  destruct (respects_resp _ _ false (R (Some (zlocs idx))) h1 w Ww) as (h2 & U2 & P2). rewrite Rw in P2.
  assert (V2 : unchanged h h2) by (apply (unch_trans _ h1); auto; intros z Hz; apply U2; auto; discriminate).
  destruct (inverse_transform (TMulti l) (Some (zlocs idx)) ya) as [b|e]; cbn [bind]; [|exists h2; split; auto; unfold hbind at 1; rewrite P2; reflexivity].
  destruct P2 as (z & P2 & Rz & _). exists h2. split; auto. unfold hbind at 1. rewrite P2. unfold hread. rewrite Rz. unfold check_at. rewrite hassert_r.
  destruct (shape_eqb b want); cbn [rassert bind]; auto. unfold hassert, rassert. destruct (aclose b want); reflexivity.
Qed.
Lemma mlocs_ok ns l draw n A B : l <> [] -> Forall2 trained ns l -> n = lsumn ns -> ((forall x y, In x ns -> In y ns -> x = y) -> Forall flat l) ->
  (forall m, Forall (fun i => i < m) (draw m)) -> alen (M B) = n -> alen (M A) = n -> inverse_transform (TMulti l) None (M B) = Ok (M A) -> mlocs_val l draw (M A) (M B) = Ok tt.
Proof.
  intros Hl HT -> HF Hdr HB HA E. unfold mlocs_val. assert (HD := variable_sizes_trained ns l HT). rewrite HD. destruct (all_same ns) eqn:ES; cbn [negb]; auto.
  pose proof (proj1 (all_same_iff ns) ES) as HS. specialize (HF HS). set (m := nth 0 ns 0).
  assert (Ens : ns = repeat m (length l) /\ Forall (trained m) l).
  { assert (K : forall x, In x ns -> x = m). { intros x Hx. apply HS; auto. unfold m. destruct ns; [destruct Hx|]. left; auto. }
    clearbody m. clear -HT K. induction HT as [|x t ns l Ht HT IH]; [split; auto; constructor|]. destruct IH as [IH1 IH2]; [intros; apply K; right; auto|].
    assert (x = m) by (apply K; left; auto). subst x. split; [cbn; congruence|constructor; auto]. }
  set (idx := draw m). destruct Ens as [Ens HTm]. rewrite (multi_split_ok _ ns (M A)) by auto. cbn [bind].
  assert (Hns : ns <> []) by (rewrite Ens; destruct l; [congruence|discriminate]).
  assert (CC : forall Y, length Y = lsumn ns -> exists c, aconcat (map (asel idx) (split_rows ns (M Y))) = Ok c).
  { intros Y HY. rewrite split_rows_M. exists (M (concat (map (fun v => take_at [] v idx) (lsplit ns Y)))).
    replace (map (asel idx) (map M (lsplit ns Y))) with (map M (map (fun v => take_at [] v idx) (lsplit ns Y))) by (rewrite !map_map; reflexivity).
    apply aconcat_M. destruct ns; [congruence|]. unfold lsplit. cbn. discriminate. }
  destruct (CC B HB) as (bs & Ebs). destruct (CC A HA) as (want & Ew). rewrite Ew. cbn [bind]. rewrite (multi_split_ok _ ns (M B)) by auto. cbn [bind]. rewrite Ebs. cbn [bind].
  rewrite Ens in Ebs, Ew, HB. destruct (C02_multi m l (zlocs idx) idx Hl HTm HF (selects_z m idx (Hdr m)) (M A) (M B) bs) as (as' & E3 & E4); auto.
  rewrite E3 in Ew. injection Ew as <-. rewrite E4. cbn [bind]. rewrite shape_refl, aclose_refl. reflexivity.
Qed.
Lemma h_multi ns l rx rl tol h : l <> [] -> 0 < lsumn ns -> Forall2 trained ns l -> ((forall x y, In x ns -> In y ns -> x = y) -> Forall flat l) ->
  is_mat (lsumn ns) 20 (rx (lsumn ns)) -> (forall m, Forall (fun i => i < m) (rl m)) -> (0 <= tol)%R ->
  exists h', h_verify (tf_obj (TMulti l) rl) rx tol h = (h', Ok tt) /\ unchanged h h'.
Proof.
  intros Hl Hn HT HF HX Hdr Htol. assert (TM : trained (lsumn ns) (TMulti l)) by (apply trained_multi; eauto). destruct (C08_all (TMulti l)) as (R1 & R2 & R3 & _).
  destruct (verify_sim (tf_obj (TMulti l) rl) (transform (TMulti l)) (inverse_transform (TMulti l) None) (Some (transform_ddts (TMulti l))) (mlocs_val l rl) tol) with (n := lsumn ns) (h := h) (X := rx) as (h' & E & U); auto.
  - now apply respects_resp. - intros fl. apply respects_resp, (R3 None). - cbn. intros fl. now apply respects_resp. - cbn. apply hm_locs_sim.
  - now apply respects_resp. - now apply trained_dim.
  - exists h'. split; auto. rewrite E. f_equal. destruct (trained_inverts _ _ 20 _ TM HX) as (B & E1 & HB & E2).
    apply (val_ok (lsumn ns) _ _ _ _ tol _ B); auto.
    + apply (mlocs_ok ns l rl (lsumn ns)); auto; [apply (is_mat_len _ _ _ HB)|apply (is_mat_len _ _ _ HX)].
    + apply C66_affine; auto.
Qed.
Lemma verifiable_trained t : forall n, verifiable n t -> trained n t /\ 0 < n.
Proof.
  induction t as [r nm|c d nm|s|d nm|l nm IH|l IH] using tf_ind'; intros n H; inversion H as [m u Hn Ht HF|ns l' Hl HV HS]; subst; auto.
  assert (K : Forall2 (fun n t => trained n t /\ 0 < n) ns l). { clear -IH HV. induction HV; [constructor|]. apply Forall_cons_iff in IH. destruct IH as [IH0 IH]. constructor; auto. }
  split.
  - apply trained_multi. split; auto. exists ns. split; auto. clear -K. induction K; constructor; tauto.
  - destruct K as [|x t ns l [_ K] _]; [congruence|]. change (lsumn (x :: ns)) with (x + lsumn ns). lia.
Qed.
Fixpoint vmembers (rx : list nat -> nat -> mat) rl tol path (l : list tf) (i : nat) : H unit :=
  match l with [] => hret tt | u :: l' => hbind (tf_verify rx rl tol u (i :: path)) (fun _ => vmembers rx rl tol path l' (S i)) end.
Lemma tf_verify_multi rx rl tol l path : tf_verify rx rl tol (TMulti l) path = hbind (vmembers rx rl tol path l 0) (fun _ => h_verify (tf_obj (TMulti l) (rl path)) (rx path) tol).
Proof. cbn [tf_verify]. f_equal. generalize 0. induction l as [|u l IH]; intros i; auto. cbn [vmembers]. now rewrite <- IH. Qed.
Lemma library_accepts rx rl tol t : draws_ok rx rl -> (0 <= tol)%R -> forall n path h, verifiable n t -> exists h', tf_verify rx rl tol t path h = (h', Ok tt) /\ unchanged h h'.
Proof.
  intros Hd Ht. induction t as [r nm|c d nm|s|d nm|l nm IH|l IH] using tf_ind'; intros n path h H.
  1-5: (inversion H as [m u Hn Htr HF|]; subst; cbn [tf_verify]; apply (h_flat n); auto; apply Hd).
  assert (HV := verifiable_trained _ _ H). rewrite tf_verify_multi. inversion H as [m u Hn Htr HF|ns l' Hl HF2 HS]; subst; [destruct HF|].
  assert (G : forall i h, exists h', vmembers rx rl tol path l i h = (h', Ok tt) /\ unchanged h h').
  { clear -IH HF2. induction HF2 as [|x t ns l Hx HF2 IHl]; intros i h; [exists h; split; [reflexivity|apply unch_refl]|]. apply Forall_cons_iff in IH. destruct IH as [IH0 IH].
    destruct (IH0 x (i :: path) h Hx) as (h1 & E1 & U1). destruct (IHl IH (S i) h1) as (h2 & E2 & U2). exists h2. split; [|apply (unch_trans _ h1); auto].
    cbn [vmembers]. unfold hbind. rewrite E1. exact E2. }
  destruct (G 0 h) as (h1 & E1 & U1). assert (HT : Forall2 trained ns l).
  { clear -HF2. induction HF2; constructor; auto. now apply verifiable_trained. }
  destruct (h_multi ns l (rx path) (rl path) tol h1 Hl (proj2 HV) HT HS) as (h2 & E2 & U2); auto; [apply Hd|intros; apply Hd|].
  exists h2. split; [|apply (unch_trans _ h1); auto]. unfold hbind. rewrite E1. exact E2.
Qed.

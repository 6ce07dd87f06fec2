(* DdtProofs.v -- lemmas about DdtModel.v *)
From Coq Require Import ZArith.
From Verif Require Import LinAlg MatAlg BlockAlg TupleLemmas OpsProofs.
From Verif Require Export DdtModel SpecDdt.
#[local] Open Scope nat_scope.

(* ---- polynomials ------------------------------------------------------------------------------------------- *)
Definition dpeval (cs : list R) (x : R) : R := bsum (length cs) (fun k => (nth k cs 0 * (INR k * x ^ (k - 1)))%R).
Lemma derivable_bsum n (f : nat -> R -> R) (d : nat -> R) x : (forall k, k < n -> derivable_pt_lim (f k) x (d k)) ->
  derivable_pt_lim (fun y => bsum n (fun k => f k y)) x (bsum n d).
Proof. induction n; intros H; cbn; [apply derivable_pt_lim_const|].
  apply (derivable_pt_lim_plus (fun y => bsum n (fun k => f k y)) (f n)); auto. Qed.
Lemma peval_deriv cs x : derivable_pt_lim (peval cs) x (dpeval cs x).
Proof. unfold peval, dpeval. apply derivable_bsum. intros k Hk. apply (derivable_pt_lim_scal (fun y => (y ^ k)%R)).
  destruct k as [|k]; cbn [INR]. { rewrite Rmult_0_l. cbn. apply derivable_pt_lim_const. }
  replace (S k - 1) with (Nat.pred (S k)) by lia. apply (derivable_pt_lim_pow x (S k)). Qed.
Lemma bsum_pad a b (f : nat -> R) : a <= b -> (forall k, a <= k -> f k = 0%R) -> bsum a f = bsum b f.
Proof. intros H Hf. induction H; auto. cbn. rewrite <- IHle, Hf by lia. ring. Qed.
Lemma peval_pad n cs x : length cs <= n -> peval cs x = bsum n (fun k => (nth k cs 0 * x ^ k)%R).
Proof. intros H. apply bsum_pad; auto. intros k Hk. rewrite nth_overflow by lia. ring. Qed.
Lemma dpeval_pad n cs x : length cs <= n -> dpeval cs x = bsum n (fun k => (nth k cs 0 * (INR k * x ^ (k - 1)))%R).
Proof. intros H. apply bsum_pad; auto. intros k Hk. rewrite nth_overflow by lia. ring. Qed.

(* ---- one stencil: sum_l c_l f(y + (l - left) dt) -------------------------------------------------------------- *)
Definition stencil (c : vec) (f : nat -> R) : R := bsum (length c) (fun l => (vget c l * f l)%R).

Ltac poly_exact n :=
  intros; rewrite !(peval_pad n) by (cbn; lia); rewrite !(dpeval_pad n) by (cbn; lia).

Definition den (c : list Z) (d : R) (left : nat) (order : nat) : Prop :=
  forall cs dt x, dt <> 0%R -> length cs <= S order ->
  stencil (zdiv c (d * dt)) (fun l => peval cs (x + INR l * dt)%R) = dpeval cs (x + INR left * dt)%R.

(* reduce to: polynomial of degree <= n written out *)
Ltac den_tac :=
  unfold den; intros cs dt x Hdt Hl; unfold stencil;
  rewrite (dpeval_pad _ cs _ Hl);
  erewrite bsum_ext by (intros l Hlt; rewrite (peval_pad _ cs _ Hl); reflexivity);
  set (a := fun k => nth k cs 0%R);
  cbn [length zdiv map bsum vget nth INR Nat.sub pow];
  repeat match goal with |- context [nth ?k cs 0%R] => change (nth k cs 0%R) with (a k) end;
  field; auto.

Lemma den_f1 : den [-1; 1]%Z 1 0 1. Proof. den_tac. Qed.
Lemma den_f2 : den [-3; 4; -1]%Z 2 0 2. Proof. den_tac. Qed.
Lemma den_f3 : den [-11; 18; -9; 2]%Z 6 0 3. Proof. den_tac. Qed.
Lemma den_f4 : den [-25; 48; -36; 16; -3]%Z 12 0 4. Proof. den_tac. Qed.
Lemma den_f5 : den [-137; 300; -300; 200; -75; 12]%Z 60 0 5. Proof. den_tac. Qed.
Lemma den_f6 : den [-147; 360; -450; 400; -225; 72; -10]%Z 60 0 6. Proof. den_tac. Qed.
Lemma den_b1 : den [-1; 1]%Z 1 1 1. Proof. den_tac. Qed.
Lemma den_b2 : den [1; -4; 3]%Z 2 2 2. Proof. den_tac. Qed.
Lemma den_b3 : den [-2; 9; -18; 11]%Z 6 3 3. Proof. den_tac. Qed.
Lemma den_b4 : den [3; -16; 36; -48; 25]%Z 12 4 4. Proof. den_tac. Qed.
Lemma den_b5 : den [-12; 75; -200; 300; -300; 137]%Z 60 5 5. Proof. den_tac. Qed.
Lemma den_b6 : den [10; -72; 225; -400; 450; -360; 147]%Z 60 6 6. Proof. den_tac. Qed.
Lemma den_c2 : den [-1; 0; 1]%Z 2 1 2. Proof. den_tac. Qed.
Lemma den_c4 : den [1; -8; 0; 8; -1]%Z 12 2 4. Proof. den_tac. Qed.
Lemma den_c6 : den [-1; 9; -45; 0; 45; -9; 1]%Z 60 3 6. Proof. den_tac. Qed.
(* one-sided stencils of ddt_uniform *)
Lemma den_41 : den [-3; -10; 18; -6; 1]%Z 12 1 4. Proof. den_tac. Qed.
Lemma den_61 : den [-10; -77; 150; -100; 50; -15; 2]%Z 60 1 6. Proof. den_tac. Qed.
Lemma den_62 : den [2; -24; -35; 80; -30; 8; -1]%Z 60 2 6. Proof. den_tac. Qed.
Lemma den_43 : den [-1; 6; -18; 10; 3]%Z 12 3 4. Proof. den_tac. Qed.
Lemma den_65 : den [-2; 15; -50; 100; -150; 77; 10]%Z 60 5 6. Proof. den_tac. Qed.
Lemma den_64 : den [1; -8; 30; -80; 35; 24; -2]%Z 60 4 6. Proof. den_tac. Qed.

(* the error on x^(order+1) is E dt^order, whatever the point *)
Definition err_next (c : list Z) (d : R) (left : nat) (order : nat) (E : R) : Prop :=
  forall dt x, dt <> 0%R ->
  (stencil (zdiv c (d * dt)) (fun l => (x + INR l * dt) ^ S order) - INR (S order) * (x + INR left * dt) ^ order = E * dt ^ order)%R.
Ltac err_tac := unfold err_next; intros dt x Hdt; unfold stencil; cbn [length zdiv map bsum vget nth INR Nat.sub pow]; field; auto.
Lemma err_f1 : err_next [-1; 1]%Z 1 0 1 1. Proof. err_tac. Qed.
Lemma err_f2 : err_next [-3; 4; -1]%Z 2 0 2 (-2). Proof. err_tac. Qed.
Lemma err_f3 : err_next [-11; 18; -9; 2]%Z 6 0 3 6. Proof. err_tac. Qed.
Lemma err_f4 : err_next [-25; 48; -36; 16; -3]%Z 12 0 4 (-24). Proof. err_tac. Qed.
Lemma err_f5 : err_next [-137; 300; -300; 200; -75; 12]%Z 60 0 5 120. Proof. err_tac. Qed.
Lemma err_f6 : err_next [-147; 360; -450; 400; -225; 72; -10]%Z 60 0 6 (-720). Proof. err_tac. Qed.
Lemma err_b1 : err_next [-1; 1]%Z 1 1 1 (-1). Proof. err_tac. Qed.
Lemma err_b2 : err_next [1; -4; 3]%Z 2 2 2 (-2). Proof. err_tac. Qed.
Lemma err_b3 : err_next [-2; 9; -18; 11]%Z 6 3 3 (-6). Proof. err_tac. Qed.
Lemma err_b4 : err_next [3; -16; 36; -48; 25]%Z 12 4 4 (-24). Proof. err_tac. Qed.
Lemma err_b5 : err_next [-12; 75; -200; 300; -300; 137]%Z 60 5 5 (-120). Proof. err_tac. Qed.
Lemma err_b6 : err_next [10; -72; 225; -400; 450; -360; 147]%Z 60 6 6 (-720). Proof. err_tac. Qed.
Lemma err_c2 : err_next [-1; 0; 1]%Z 2 1 2 1. Proof. err_tac. Qed.
Lemma err_c4 : err_next [1; -8; 0; 8; -1]%Z 12 2 4 (-4). Proof. err_tac. Qed.
Lemma err_c6 : err_next [-1; 9; -45; 0; 45; -9; 1]%Z 60 3 6 36. Proof. err_tac. Qed.

(* ---- Python slices -------------------------------------------------------------------------------------------- *)
Lemma mcols_entry r k a b Q i j : is_mat r k Q -> a <= b -> b <= k -> i < r -> j < b - a -> mget (mcols a b Q) i j = mget Q i (a + j).
Proof. intros HQ Hab Hb Hi Hj. unfold mget, mcols. rewrite (nth_map_in _ _ _ _ []) by (rewrite (proj1 HQ); auto). apply slice_nth. auto. Qed.
Lemma mcols_shape r k a b Q : is_mat r k Q -> a <= b -> b <= k -> is_mat r (b - a) (mcols a b Q).
Proof. intros [H1 H2] Hab Hb. split; [unfold mcols; rewrite map_length; auto|]. unfold mcols. rewrite Forall_forall in *. intros x Hx.
  apply in_map_iff in Hx. destruct Hx as [y [<- Hy]]. apply slice_length; auto. rewrite (H2 y Hy); auto. Qed.

Lemma mcols_shape' r k a n Q : is_mat r k Q -> a + n <= k -> is_mat r n (mcols a (a + n) Q).
Proof. intros. replace n with (a + n - a) at 1 by lia. apply (mcols_shape r k); auto; lia. Qed.

Lemma py_cols {A} md order (l : list A) : 0 < order -> (md = Ctr -> exists h, order = 2 * h) -> order <= length l ->
  py_slice (p_start (fd_cols md order)) (p_stop (fd_cols md order)) l =
  slice (first_col md order) (first_col md order + (length l - order)) l.
Proof. intros Ho He Hk. destruct md; cbn [fd_cols p_start p_stop first_col py_slice]; unfold py_slice, py_index.
  - replace (0 <? 0)%Z with false by reflexivity. replace (- Z.of_nat order <? 0)%Z with true by (symmetry; apply Z.ltb_lt; lia). f_equal; lia.
  - replace (Z.of_nat order <? 0)%Z with false by (symmetry; apply Z.ltb_ge; lia). f_equal; lia.
  - destruct (He eq_refl) as [h ->]. rewrite Nat.mul_comm, Nat.div_mul by lia. cbn [p_start p_stop].
    replace (Z.of_nat h <? 0)%Z with false by (symmetry; apply Z.ltb_ge; lia).
    replace (- Z.of_nat h <? 0)%Z with true by (symmetry; apply Z.ltb_lt; lia). f_equal; lia. Qed.
Lemma cols_mat md order r k Q : 0 < order -> (md = Ctr -> exists h, order = 2 * h) -> order <= k -> is_mat r k Q ->
  map (py_slice (p_start (fd_cols md order)) (p_stop (fd_cols md order))) Q = mcols (first_col md order) (first_col md order + (k - order)) Q.
Proof. intros Ho He Hk [H1 H2]. unfold mcols. apply map_ext_in. intros row Hr. rewrite Forall_forall in H2. specialize (H2 row Hr).
  rewrite py_cols by (auto; lia). rewrite H2. reflexivity. Qed.
Lemma first_col_le md order : (md = Ctr -> exists h, order = 2 * h) -> first_col md order <= order.
Proof. intros He. destruct md; cbn [first_col]; try lia. apply Nat.div_le_upper_bound; lia. Qed.

(* ---- _finite_difference ------------------------------------------------------------------------------------------ *)
Lemma fd_fold r k order Q : is_mat r k Q -> order <= k -> forall l acc,
  (forall j c, In (j, c) l -> j <= order) -> is_mat r (k - order) acc ->
  let out := fold_left (fun acc (jc : nat * R) => let '(j, c) := jc in
      if Req_EM_T c 0 then acc else madd acc (mscale c (mcols j (k - order + j) Q))) l acc in
  is_mat r (k - order) out /\ forall i j, i < r -> j < k - order ->
    mget out i j = (mget acc i j + lsum (map (fun jc => snd jc * mget Q i (fst jc + j)) l))%R.
Proof. intros HQ Ho. induction l as [|[j c] l IH]; intros acc Hl Ha; cbn [fold_left].
  - split; auto. intros. cbn. unfold lsum; cbn. ring.
  - assert (Hj : j <= order) by (apply (Hl j c); left; auto).
    assert (Hl' : forall j0 c0, In (j0, c0) l -> j0 <= order) by (intros; eapply Hl; right; eauto).
    assert (HC : is_mat r (k - order) (mcols j (k - order + j) Q)).
    { replace (k - order) with (k - order + j - j) at 1 by lia. apply (mcols_shape r k); auto; lia. }
    cbn [map fst snd]. destruct (Req_EM_T c 0) as [->|Hc].
    + destruct (IH acc Hl' Ha) as [E1 E2]. split; auto. intros i jj Hi Hjj. rewrite E2 by auto. rewrite lsum_cons. ring.
    + destruct (IH (madd acc (mscale c (mcols j (k - order + j) Q))) Hl') as [E1 E2]; [mt|]. split; auto. intros i jj Hi Hjj.
      rewrite E2 by auto. rewrite (mget_madd r (k - order)) by mt. rewrite (mget_mscale r (k - order)) by mt.
      rewrite (mcols_entry r k) by (auto; lia). rewrite lsum_cons. ring. Qed.

Lemma lsum_combine_seq (f : nat -> R -> R) : forall (c : vec) a,
  lsum (map (fun jc => f (fst jc) (snd jc)) (combine (seq a (length c)) c)) = bsum (length c) (fun l => f (a + l) (vget c l)).
Proof. induction c as [|x c IH]; intros a; [reflexivity|]. cbn [length seq combine map fst snd]. rewrite lsum_cons, IH, bsum_S_l.
  cbn [vget nth]. rewrite Nat.add_0_r. f_equal. apply bsum_ext. intros l Hl. f_equal. lia. Qed.

Lemma fd_ok r k Q c md u : 0 < r -> is_mat r k Q -> 2 <= length c -> length c - 1 <= k -> (md = Ctr -> exists h, length c - 1 = 2 * h) ->
  let order := length c - 1 in
  exists D, finite_difference Q c md u = Ok (mcols (first_col md order) (first_col md order + (k - order)) Q, D,
      match u with None => None | Some u => Some (cols_arr (fd_cols md order) u) end) /\ is_mat r (k - order) D /\
  forall i j, i < r -> j < k - order -> mget D i j = stencil c (fun l => mget Q i (l + j)).
Proof. intros Hr HQ Hc Hk He order. unfold finite_difference. rewrite (ncols_is_mat r k Q HQ Hr), (is_mat_nrows r k Q HQ). fold order.
  destruct (Nat.ltb_spec k order); [unfold order in *; lia|].
  destruct (fd_fold r k order Q HQ Hk (combine (seq 0 (length c)) c) (mzeros r (k - order))) as [E1 E2].
  - intros j x Hx. apply in_combine_l, in_seq in Hx. unfold order. lia.
  - apply is_mat_mzeros.
  - eexists. split; [|split; [exact E1|]].
    + do 2 f_equal. f_equal. apply (cols_mat md order r k Q); auto. unfold order; lia.
    + intros i j Hi Hj. rewrite E2 by auto. rewrite mget_mzeros, Rplus_0_l.
      rewrite (lsum_combine_seq (fun l x => (x * mget Q i (l + j))%R)). reflexivity. Qed.

(* ---- the table --------------------------------------------------------------------------------------------------- *)
Definition tab (s : scheme) : list Z * R :=
  match s with
  | Fwd1 => ([-1; 1]%Z, 1%R) | Fwd2 => ([-3; 4; -1]%Z, 2%R) | Fwd3 => ([-11; 18; -9; 2]%Z, 6%R) | Fwd4 => ([-25; 48; -36; 16; -3]%Z, 12%R)
  | Fwd5 => ([-137; 300; -300; 200; -75; 12]%Z, 60%R) | Fwd6 => ([-147; 360; -450; 400; -225; 72; -10]%Z, 60%R)
  | Bwd1 => ([-1; 1]%Z, 1%R) | Bwd2 => ([1; -4; 3]%Z, 2%R) | Bwd3 => ([-2; 9; -18; 11]%Z, 6%R) | Bwd4 => ([3; -16; 36; -48; 25]%Z, 12%R)
  | Bwd5 => ([-12; 75; -200; 300; -300; 137]%Z, 60%R) | Bwd6 => ([10; -72; 225; -400; 450; -360; 147]%Z, 60%R)
  | Ctr2 => ([-1; 0; 1]%Z, 2%R) | Ctr4 => ([1; -8; 0; 8; -1]%Z, 12%R) | Ctr6 => ([-1; 9; -45; 0; 45; -9; 1]%Z, 60%R)
  | _ => ([], 0%R)
  end.
Lemma run_tab s md Q dt u : scheme_mode s = Some md -> run_scheme s Q dt u = finite_difference Q (zdiv (fst (tab s)) (snd (tab s) * dt)) md u.
Proof. destruct s; cbn [scheme_mode]; intros [= <-]; cbn [run_scheme tab fst snd]; rewrite ?Rmult_1_l; reflexivity. Qed.
Lemma tab_length s md : scheme_mode s = Some md -> length (fst (tab s)) = S (scheme_order s).
Proof. destruct s; cbn; intros [= <-]; reflexivity. Qed.
Lemma tab_even s : scheme_mode s = Some Ctr -> exists h, scheme_order s = 2 * h.
Proof. destruct s; cbn; intros; try discriminate; [exists 1|exists 2|exists 3]; reflexivity. Qed.
Lemma tab_exact s md : scheme_mode s = Some md -> den (fst (tab s)) (snd (tab s)) (first_col md (scheme_order s)) (scheme_order s).
Proof. destruct s; cbn [scheme_mode]; intros [= <-]; cbn [tab fst snd scheme_order first_col];
  first [exact den_f1|exact den_f2|exact den_f3|exact den_f4|exact den_f5|exact den_f6|exact den_b1|exact den_b2|exact den_b3|exact den_b4
        |exact den_b5|exact den_b6|exact den_c2|exact den_c4|exact den_c6]. Qed.
Lemma tab_error s md : scheme_mode s = Some md -> exists E, E <> 0%R /\ err_next (fst (tab s)) (snd (tab s)) (first_col md (scheme_order s)) (scheme_order s) E.
Proof. destruct s; cbn [scheme_mode]; intros [= <-]; cbn [tab fst snd scheme_order first_col];
  eexists; (split; [|first [exact err_f1|exact err_f2|exact err_f3|exact err_f4|exact err_f5|exact err_f6|exact err_b1|exact err_b2|exact err_b3|exact err_b4
        |exact err_b5|exact err_b6|exact err_c2|exact err_c4|exact err_c6]]); lra. Qed.

Lemma zdiv_length c d : length (zdiv c d) = length c. Proof. apply map_length. Qed.
Lemma scheme_order_pos s : 0 < scheme_order s. Proof. destruct s; cbn; lia. Qed.

(* what a (non-mixed) scheme returns *)
Lemma scheme_ok s md r k Q dt u : scheme_mode s = Some md -> 0 < r -> is_mat r k Q -> scheme_order s <= k ->
  let p := scheme_order s in let a := first_col md p in
  exists D, run_scheme s Q dt u = Ok (mcols a (a + (k - p)) Q, D, match u with None => None | Some u => Some (cols_arr (fd_cols md p) u) end) /\
  is_mat r (k - p) D /\
  forall i j, i < r -> j < k - p -> mget D i j = stencil (zdiv (fst (tab s)) (snd (tab s) * dt)) (fun l => mget Q i (l + j)).
Proof. intros Hm Hr HQ Hk p a. rewrite (run_tab s md) by auto. assert (HL := tab_length s md Hm).
  assert (Hp := scheme_order_pos s). fold p in Hk, Hp, HL.
  destruct (fd_ok r k Q (zdiv (fst (tab s)) (snd (tab s) * dt)) md u) as [D [E1 [E2 E3]]]; rewrite ?zdiv_length, ?HL; auto; try lia.
  - intros ->. replace (S p - 1) with p by lia. apply tab_even; auto.
  - rewrite zdiv_length, HL in *. replace (S p - 1) with p in * by lia. exists D. auto. Qed.

Lemma scheme_short s md r k Q dt u : scheme_mode s = Some md -> 0 < r -> is_mat r k Q -> k < scheme_order s -> run_scheme s Q dt u = Err ValueError.
Proof. intros Hm Hr HQ Hk. rewrite (run_tab s md) by auto. unfold finite_difference. rewrite zdiv_length, (tab_length s md Hm), (ncols_is_mat r k Q HQ Hr).
  destruct (Nat.ltb_spec k (S (scheme_order s) - 1)); auto. lia. Qed.

Lemma grid_shift t0 dt l j : grid t0 dt (l + j) = (grid t0 dt j + INR l * dt)%R.
Proof. unfold grid. rewrite plus_INR. ring. Qed.
Lemma samples_stencil r k t0 dt f Q c i j : samples r k (grid t0 dt) f Q -> i < r -> length c + j <= k ->
  stencil c (fun l => mget Q i (l + j)) = stencil c (fun l => f i (grid t0 dt j + INR l * dt)%R).
Proof. intros [HQ HS] Hi Hj. unfold stencil. apply bsum_ext. intros l Hl. rewrite HS by lia. rewrite grid_shift. reflexivity. Qed.

(* exact on polynomials of degree at most the order *)
Lemma scheme_exact s md r k Q dt t0 u (cs : nat -> list R) : scheme_mode s = Some md -> 0 < r -> dt <> 0%R -> scheme_order s <= k ->
  (forall i, i < r -> length (cs i) <= S (scheme_order s)) -> samples r k (grid t0 dt) (fun i => peval (cs i)) Q ->
  let p := scheme_order s in let a := first_col md p in
  exists S D U, run_scheme s Q dt u = Ok (S, D, U) /\ is_mat r (k - p) S /\ is_mat r (k - p) D /\
  forall i j, i < r -> j < k - p -> mget S i j = mget Q i (a + j) /\ derivable_pt_lim (peval (cs i)) (grid t0 dt (a + j)) (mget D i j).
Proof. intros Hm Hr Hdt Hk Hcs HS p a. destruct (scheme_ok s md r k Q dt u Hm Hr (proj1 HS) Hk) as [D [E1 [E2 E3]]]. fold p a in E1, E2, E3.
  assert (Ha : a <= p). { apply first_col_le. intros ->. apply tab_even; auto. }
  eexists. exists D. eexists. split; [exact E1|]. split.
  { replace (k - p) with (a + (k - p) - a) at 1 by lia. apply (mcols_shape r k); [apply HS|lia|fold p in Hk; lia]. }
  split; auto. intros i j Hi Hj. split.
  - apply (mcols_entry r k); [apply HS|lia|fold p in Hk; lia|auto|lia].
  - rewrite E3 by auto. rewrite (samples_stencil r k t0 dt _ Q _ i j HS Hi).
    + rewrite (tab_exact s md Hm (cs i) dt (grid t0 dt j) Hdt (Hcs i Hi)). fold p a. rewrite grid_shift. apply peval_deriv.
    + rewrite zdiv_length, (tab_length s md Hm). fold p. fold p in Hk. lia. Qed.

(* never exact one degree higher *)
Lemma scheme_not_exact s md r k Q dt t0 u : scheme_mode s = Some md -> 0 < r -> dt <> 0%R -> scheme_order s <= k ->
  samples r k (grid t0 dt) (fun i x => x ^ S (scheme_order s))%R Q ->
  let p := scheme_order s in let a := first_col md p in
  exists S D U, run_scheme s Q dt u = Ok (S, D, U) /\
  forall i j, i < r -> j < k - p -> ~ derivable_pt_lim (fun x => x ^ Datatypes.S p)%R (grid t0 dt (a + j)) (mget D i j).
Proof. intros Hm Hr Hdt Hk HS p a. destruct (scheme_ok s md r k Q dt u Hm Hr (proj1 HS) Hk) as [D [E1 [E2 E3]]]. fold p a in E1, E2, E3.
  eexists. exists D. eexists. split; [exact E1|]. intros i j Hi Hj K.
  assert (K2 := derivable_pt_lim_pow (grid t0 dt (a + j)) (Datatypes.S p)). assert (K3 := uniqueness_limite _ _ _ _ K K2).
  rewrite E3 in K3 by auto. rewrite (samples_stencil r k t0 dt _ Q _ i j HS Hi) in K3.
  2:{ rewrite zdiv_length, (tab_length s md Hm). fold p. fold p in Hk. lia. }
  destruct (tab_error s md Hm) as [E [HE HN]]. specialize (HN dt (grid t0 dt j) Hdt). fold p a in HN. fold p in K3.
  rewrite K3 in HN. cbn [Nat.pred] in HN. rewrite grid_shift in HN. unfold Rminus in HN. rewrite Rplus_opp_r in HN.
  symmetry in HN. apply Rmult_integral in HN. destruct HN as [HN|HN]; [auto|]. exact (pow_nonzero dt p Hdt HN). Qed.

(* ---- ddt_uniform --------------------------------------------------------------------------------------------------- *)
Lemma negrev_zdiv c d : negrev (zdiv c d) = zdiv (map Z.opp (rev c)) d.
Proof. unfold negrev, zdiv. rewrite <- map_rev, !map_map. apply map_ext. intros z. rewrite opp_IZR. unfold Rdiv. ring. Qed.
Lemma dot_stencil v c a k : length v = k -> a + length c <= k -> dot (slice a (a + length c) v) c = stencil c (fun l => vget v (l + a)).
Proof. intros Hv Hc. unfold stencil. rewrite (dot_bsum (length c)).
  - apply bsum_ext. intros l Hl. unfold vget. rewrite slice_nth by lia. rewrite (Nat.add_comm a l). ring.
  - unfold is_vec. rewrite slice_length; lia.
  - reflexivity. Qed.
Lemma map_nth_seq {A} (l : list A) d : map (fun i => nth i l d) (seq 0 (length l)) = l.
Proof. induction l as [|x l IH]; [reflexivity|]. cbn [length seq map nth]. f_equal. rewrite <- seq_shift, map_map. exact IH. Qed.
Lemma matvec_stencil r k Q c a : 0 < r -> is_mat r k Q -> a + length c <= k ->
  matvec_r (mcols a (a + length c) Q) c = Ok (map (fun i => stencil c (fun l => mget Q i (l + a))) (seq 0 r)).
Proof. intros Hr HQ Hc. unfold matvec_r. assert (HM := mcols_shape r k a (a + length c) Q HQ ltac:(lia) Hc).
  rewrite (ncols_is_mat _ _ _ HM Hr). replace (a + length c - a) with (length c) by lia. rewrite Nat.eqb_refl. f_equal.
  unfold matvec, mcols. rewrite map_map. destruct HQ as [H1 H2]. rewrite <- H1. rewrite <- (map_nth_seq Q []) at 1. rewrite map_map.
  apply map_ext_in. intros i Hi. apply in_seq in Hi. apply (dot_stencil _ c a k); auto. rewrite Forall_forall in H2. apply H2. apply nth_In. lia. Qed.
Lemma front_ok r k Q c w : 0 < r -> is_mat r k Q -> length c = w -> w <= k ->
  front w Q c = Ok (map (fun i => stencil c (fun l => mget Q i (l + 0))) (seq 0 r)).
Proof. intros Hr HQ Hc Hw. unfold front. rewrite <- (matvec_stencil r k Q c 0) by (auto; lia). f_equal. unfold mcols. apply map_ext_in.
  intros row Hrow. destruct HQ as [_ H2]. rewrite Forall_forall in H2. specialize (H2 row Hrow). unfold py_slice, py_index.
  replace (Z.of_nat w <? 0)%Z with false by (symmetry; apply Z.ltb_ge; lia). f_equal. lia. Qed.
Lemma back_ok r k Q c w : 0 < r -> is_mat r k Q -> length c = w -> 0 < w -> w <= k ->
  back w Q c = Ok (map (fun i => stencil c (fun l => mget Q i (l + (k - w)))) (seq 0 r)).
Proof. intros Hr HQ Hc Hw0 Hw. unfold back. rewrite <- (matvec_stencil r k Q c (k - w)) by (auto; lia). f_equal. unfold mcols. apply map_ext_in.
  intros row Hrow. destruct HQ as [_ H2]. rewrite Forall_forall in H2. specialize (H2 row Hrow). unfold py_slice, py_index.
  replace (- Z.of_nat w <? 0)%Z with true by (symmetry; apply Z.ltb_lt; lia). f_equal; lia. Qed.
Lemma front_short r k Q c w : 0 < r -> is_mat r k Q -> length c = w -> k < w -> front w Q c = Err ValueError.
Proof. intros Hr HQ Hc Hw. unfold front, matvec_r. destruct Q as [|q0 Q]; [destruct HQ; cbn in *; lia|]. cbn [map ncols].
  destruct HQ as [_ H2]. apply Forall_cons_iff in H2. destruct H2 as [H2 _].
  replace (length (py_slice None (Some (Z.of_nat w)) q0)) with k.
  - destruct (Nat.eqb_spec k (length c)); auto. lia.
  - unfold py_slice, py_index. replace (Z.of_nat w <? 0)%Z with false by (symmetry; apply Z.ltb_ge; lia).
    rewrite slice_length; lia. Qed.

Lemma columns_shape l r : is_mat r (length l) (columns l r).
Proof. split; unfold columns; [rewrite map_length, seq_length; auto|]. apply Forall_forall. intros x Hx. apply in_map_iff in Hx.
  destruct Hx as [i [<- _]]. apply map_length. Qed.
Lemma columns_entry l r i j : i < r -> j < length l -> mget (columns l r) i j = vget (nth j l []) i.
Proof. intros Hi Hj. unfold mget, columns. rewrite (nth_map_in _ _ _ _ 0) by (rewrite seq_length; auto). rewrite seq_nth by auto.
  rewrite (nth_map_in _ _ _ _ []) by auto. reflexivity. Qed.
Lemma assemble_ok r k fr mid bk : is_mat r k mid -> is_mat r (length fr + k + length bk) (assemble r fr mid bk) /\
  forall i j, i < r -> j < length fr + k + length bk -> mget (assemble r fr mid bk) i j =
    if j <? length fr then vget (nth j fr []) i else if j <? length fr + k then mget mid i (j - length fr) else vget (nth (j - (length fr + k)) bk []) i.
Proof. intros Hm. assert (H1 := columns_shape fr r). assert (H2 := columns_shape bk r). unfold assemble. split; [mt|].
  intros i j Hi Hj. rewrite (mget_hcat r (length fr + k) (length bk)) by mt. destruct (Nat.ltb_spec j (length fr)).
  - destruct (Nat.ltb_spec j (length fr + k)); [|lia]. rewrite (mget_hcat r (length fr) k) by mt. destruct (Nat.ltb_spec j (length fr)); [|lia].
    apply columns_entry; auto.
  - destruct (Nat.ltb_spec j (length fr + k)).
    + rewrite (mget_hcat r (length fr) k) by mt. destruct (Nat.ltb_spec j (length fr)); [lia|]. reflexivity.
    + apply columns_entry; auto; lia. Qed.

Lemma col_exact r k t0 dt cs Q c d left order a i : den c d left order -> dt <> 0%R -> samples r k (grid t0 dt) (fun i => peval (cs i)) Q ->
  length (cs i) <= S order -> i < r -> length c + a <= k ->
  stencil (zdiv c (d * dt)) (fun l => mget Q i (l + a)) = dpeval (cs i) (grid t0 dt (left + a)).
Proof. intros Hd Hdt HS Hcs Hi Ha. rewrite (samples_stencil r k t0 dt _ Q _ i a HS Hi) by (rewrite zdiv_length; auto).
  rewrite (Hd (cs i) dt _ Hdt Hcs). rewrite grid_shift. reflexivity. Qed.

Lemma vget_rows r (f : nat -> R) i : i < r -> vget (map f (seq 0 r)) i = f i.
Proof. intros Hi. unfold vget. rewrite (nth_map_in _ _ _ _ 0) by (rewrite seq_length; auto). rewrite seq_nth; auto. Qed.

Lemma ddt_uniform_exact p r k t0 dt cs Q : (p = 2 \/ p = 4 \/ p = 6) -> 0 < r -> dt <> 0%R -> p < k ->
  (forall i, i < r -> length (cs i) <= S p) -> samples r k (grid t0 dt) (fun i => peval (cs i)) Q ->
  exists D, ddt_uniform (M Q) (DtNum dt) p = Ok D /\ is_mat r k D /\
  forall i j, i < r -> j < k -> mget D i j = dpeval (cs i) (grid t0 dt j).
Proof. intros Hp Hr Hdt Hk Hcs HS. assert (HQ := proj1 HS). destruct Hp as [->|[->| ->]]; cbn [ddt_uniform]; rewrite !negrev_zdiv.
  - rewrite (front_ok r k) by (auto; lia). cbn [bind].
    destruct (scheme_ok Ctr2 Ctr r k Q dt None eq_refl Hr HQ ltac:(cbn; lia)) as [D [E1 [E2 E3]]]. cbn [run_scheme] in E1. rewrite E1. cbn [bind fst snd].
    rewrite (back_ok r k) by (auto; lia). cbn [bind]. rewrite (is_mat_nrows r k Q HQ). eexists. split; [reflexivity|].
    cbn [scheme_order first_col] in *.
    match goal with |- context [assemble r ?f D ?b] => destruct (assemble_ok r (k - 2) f D b E2) as [F1 F2] end. cbn [length] in F1, F2.
    split. { replace (1 + (k - 2) + 1) with k in F1 by lia. exact F1. }
    intros i j Hi Hj. rewrite F2 by lia. specialize (Hcs i Hi).
    destruct (Nat.ltb_spec j 1); [|destruct (Nat.ltb_spec j (1 + (k - 2)))].
    + replace j with 0 by lia. cbn [nth]. rewrite vget_rows by auto. rewrite (col_exact r k t0 dt cs Q _ _ _ _ _ i den_f2) by (auto; cbn; lia). reflexivity.
    + rewrite E3 by lia. cbn [tab fst snd]. rewrite (col_exact r k t0 dt cs Q _ _ _ _ _ i den_c2) by (auto; cbn; lia). do 2 f_equal. lia.
    + replace (j - (1 + (k - 2))) with 0 by lia. cbn [nth]. rewrite vget_rows by auto.
      change (map Z.opp (rev [-3; 4; -1]%Z)) with [1; -4; 3]%Z. rewrite (col_exact r k t0 dt cs Q _ _ _ _ _ i den_b2) by (auto; cbn; lia). do 2 f_equal. lia.
  - rewrite !(front_ok r k) by (auto; lia). cbn [bind].
    destruct (scheme_ok Ctr4 Ctr r k Q dt None eq_refl Hr HQ ltac:(cbn; lia)) as [D [E1 [E2 E3]]]. cbn [run_scheme] in E1. rewrite E1. cbn [bind fst snd].
    rewrite !(back_ok r k) by (auto; lia). cbn [bind]. rewrite (is_mat_nrows r k Q HQ). eexists. split; [reflexivity|].
    cbn [scheme_order first_col] in *.
    match goal with |- context [assemble r ?f D ?b] => destruct (assemble_ok r (k - 4) f D b E2) as [F1 F2] end. cbn [length] in F1, F2.
    split. { replace (2 + (k - 4) + 2) with k in F1 by lia. exact F1. }
    intros i j Hi Hj. rewrite F2 by lia. specialize (Hcs i Hi).
    destruct (Nat.ltb_spec j 2); [|destruct (Nat.ltb_spec j (2 + (k - 4)))].
    + assert (Hj2 : j = 0 \/ j = 1) by lia. destruct Hj2 as [-> | ->]; cbn [nth]; rewrite vget_rows by auto.
      * rewrite (col_exact r k t0 dt cs Q _ _ _ _ _ i den_f4) by (auto; cbn; lia). reflexivity.
      * rewrite (col_exact r k t0 dt cs Q _ _ _ _ _ i den_41) by (auto; cbn; lia). reflexivity.
    + rewrite E3 by lia. cbn [tab fst snd]. rewrite (col_exact r k t0 dt cs Q _ _ _ _ _ i den_c4) by (auto; cbn; lia). do 2 f_equal. lia.
    + assert (Hj2 : j = k - 2 \/ j = k - 1) by lia. destruct Hj2 as [Ej|Ej].
      * replace (j - (2 + (k - 4))) with 0 by lia. cbn [nth]. rewrite vget_rows by auto.
        change (map Z.opp (rev [-3; -10; 18; -6; 1]%Z)) with [-1; 6; -18; 10; 3]%Z. rewrite (col_exact r k t0 dt cs Q _ _ _ _ _ i den_43) by (auto; cbn; lia). do 2 f_equal. lia.
      * replace (j - (2 + (k - 4))) with 1 by lia. cbn [nth]. rewrite vget_rows by auto.
        change (map Z.opp (rev [-25; 48; -36; 16; -3]%Z)) with [3; -16; 36; -48; 25]%Z. rewrite (col_exact r k t0 dt cs Q _ _ _ _ _ i den_b4) by (auto; cbn; lia). do 2 f_equal. lia.
  - rewrite !(front_ok r k) by (auto; lia). cbn [bind].
    destruct (scheme_ok Ctr6 Ctr r k Q dt None eq_refl Hr HQ ltac:(cbn; lia)) as [D [E1 [E2 E3]]]. cbn [run_scheme] in E1. rewrite E1. cbn [bind fst snd].
    rewrite !(back_ok r k) by (auto; lia). cbn [bind]. rewrite (is_mat_nrows r k Q HQ). eexists. split; [reflexivity|].
    cbn [scheme_order first_col] in *.
    match goal with |- context [assemble r ?f D ?b] => destruct (assemble_ok r (k - 6) f D b E2) as [F1 F2] end. cbn [length] in F1, F2.
    split. { replace (3 + (k - 6) + 3) with k in F1 by lia. exact F1. }
    intros i j Hi Hj. rewrite F2 by lia. specialize (Hcs i Hi).
    destruct (Nat.ltb_spec j 3); [|destruct (Nat.ltb_spec j (3 + (k - 6)))].
    + assert (Hj2 : j = 0 \/ j = 1 \/ j = 2) by lia. destruct Hj2 as [-> |[-> | ->]]; cbn [nth]; rewrite vget_rows by auto.
      * rewrite (col_exact r k t0 dt cs Q _ _ _ _ _ i den_f6) by (auto; cbn; lia). reflexivity.
      * rewrite (col_exact r k t0 dt cs Q _ _ _ _ _ i den_61) by (auto; cbn; lia). reflexivity.
      * rewrite (col_exact r k t0 dt cs Q _ _ _ _ _ i den_62) by (auto; cbn; lia). reflexivity.
    + rewrite E3 by lia. cbn [tab fst snd]. rewrite (col_exact r k t0 dt cs Q _ _ _ _ _ i den_c6) by (auto; cbn; lia). do 2 f_equal. lia.
    + assert (Hj2 : j = k - 3 \/ j = k - 2 \/ j = k - 1) by lia. destruct Hj2 as [Ej|[Ej|Ej]].
      * replace (j - (3 + (k - 6))) with 0 by lia. cbn [nth]. rewrite vget_rows by auto.
        change (map Z.opp (rev [2; -24; -35; 80; -30; 8; -1]%Z)) with [1; -8; 30; -80; 35; 24; -2]%Z. rewrite (col_exact r k t0 dt cs Q _ _ _ _ _ i den_64) by (auto; cbn; lia). do 2 f_equal. lia.
      * replace (j - (3 + (k - 6))) with 1 by lia. cbn [nth]. rewrite vget_rows by auto.
        change (map Z.opp (rev [-10; -77; 150; -100; 50; -15; 2]%Z)) with [-2; 15; -50; 100; -150; 77; 10]%Z. rewrite (col_exact r k t0 dt cs Q _ _ _ _ _ i den_65) by (auto; cbn; lia). do 2 f_equal. lia.
      * replace (j - (3 + (k - 6))) with 2 by lia. cbn [nth]. rewrite vget_rows by auto.
        change (map Z.opp (rev [-147; 360; -450; 400; -225; 72; -10]%Z)) with [10; -72; 225; -400; 450; -360; 147]%Z. rewrite (col_exact r k t0 dt cs Q _ _ _ _ _ i den_b6) by (auto; cbn; lia). do 2 f_equal. lia. Qed.

(* rejections *)
Lemma ddt_uniform_short p r k dt Q : (p = 2 \/ p = 4 \/ p = 6) -> 0 < r -> is_mat r k Q -> k <= p -> ddt_uniform (M Q) (DtNum dt) p = Err ValueError.
Proof. intros Hp Hr HQ Hk. destruct Hp as [->|[->| ->]]; cbn [ddt_uniform]; rewrite (front_short r k) by (auto; lia); reflexivity. Qed.

(* without assumptions on the data: shape *)
Lemma ddt_uniform_shape p r k dt Q : (p = 2 \/ p = 4 \/ p = 6) -> 0 < r -> is_mat r k Q -> p < k ->
  exists D, ddt_uniform (M Q) (DtNum dt) p = Ok D /\ is_mat r k D.
Proof. intros Hp Hr HQ Hk. destruct Hp as [->|[->| ->]]; cbn [ddt_uniform]; rewrite !negrev_zdiv, !(front_ok r k) by (auto; lia); cbn [bind].
  - destruct (scheme_ok Ctr2 Ctr r k Q dt None eq_refl Hr HQ ltac:(cbn; lia)) as [D [E1 [E2 E3]]]. cbn [run_scheme] in E1. rewrite E1. cbn [bind fst snd].
    rewrite !(back_ok r k) by (auto; lia). cbn [bind]. rewrite (is_mat_nrows r k Q HQ). eexists. split; [reflexivity|]. cbn [scheme_order] in E2.
    match goal with |- context [assemble r ?f D ?b] => destruct (assemble_ok r (k - 2) f D b E2) as [F1 _] end. cbn [length] in F1.
    replace (1 + (k - 2) + 1) with k in F1 by lia. exact F1.
  - destruct (scheme_ok Ctr4 Ctr r k Q dt None eq_refl Hr HQ ltac:(cbn; lia)) as [D [E1 [E2 E3]]]. cbn [run_scheme] in E1. rewrite E1. cbn [bind fst snd].
    rewrite !(back_ok r k) by (auto; lia). cbn [bind]. rewrite (is_mat_nrows r k Q HQ). eexists. split; [reflexivity|]. cbn [scheme_order] in E2.
    match goal with |- context [assemble r ?f D ?b] => destruct (assemble_ok r (k - 4) f D b E2) as [F1 _] end. cbn [length] in F1.
    replace (2 + (k - 4) + 2) with k in F1 by lia. exact F1.
  - destruct (scheme_ok Ctr6 Ctr r k Q dt None eq_refl Hr HQ ltac:(cbn; lia)) as [D [E1 [E2 E3]]]. cbn [run_scheme] in E1. rewrite E1. cbn [bind fst snd].
    rewrite !(back_ok r k) by (auto; lia). cbn [bind]. rewrite (is_mat_nrows r k Q HQ). eexists. split; [reflexivity|]. cbn [scheme_order] in E2.
    match goal with |- context [assemble r ?f D ?b] => destruct (assemble_ok r (k - 6) f D b E2) as [F1 _] end. cbn [length] in F1.
    replace (3 + (k - 6) + 3) with k in F1 by lia. exact F1. Qed.

(* ---- UniformFiniteDifferencer ---------------------------------------------------------------------------------------- *)
Definition firstkept (s : scheme) : nat := match scheme_mode s with Some md => first_col md (scheme_order s) | None => 0 end.

Lemma ord_of s : scheme_mode s = None -> (scheme_order s = 2 \/ scheme_order s = 4 \/ scheme_order s = 6) /\
  forall Q dt u, run_scheme s Q dt u = mixed Q dt (scheme_order s) u.
Proof. destruct s; cbn; intros; try discriminate; auto. Qed.

Lemma mask_mat e r k Q : is_mat r k Q -> enough (u_scheme e) k ->
  ufd_mask e (M Q) = M (mcols (firstkept (u_scheme e)) (firstkept (u_scheme e) + kept (u_scheme e) k) Q).
Proof. intros HQ Hk. unfold ufd_mask, enough, firstkept, kept in *. destruct (scheme_mode (u_scheme e)) as [md|] eqn:Em; cbn [cols_arr].
  - f_equal. apply (cols_mat md _ r k); auto. apply scheme_order_pos. intros ->. apply tab_even; auto.
  - f_equal. unfold mcols. destruct HQ as [_ H2]. symmetry. rewrite <- map_id. apply map_ext_in. intros row Hr. rewrite Forall_forall in H2.
    unfold slice. cbn [skipn]. rewrite <- (H2 row Hr). rewrite Nat.add_0_l, Nat.sub_0_r. apply firstn_all. Qed.
Lemma mask_vec e k v : length v = k -> enough (u_scheme e) k ->
  ufd_mask e (V v) = V (slice (firstkept (u_scheme e)) (firstkept (u_scheme e) + kept (u_scheme e) k) v).
Proof. intros HQ Hk. unfold ufd_mask, enough, firstkept, kept in *. destruct (scheme_mode (u_scheme e)) as [md|] eqn:Em; cbn [cols_arr].
  - f_equal. rewrite py_cols, HQ; auto; try lia. apply scheme_order_pos. intros ->. apply tab_even; auto.
  - f_equal. unfold slice. cbn [skipn]. rewrite <- HQ, Nat.add_0_l, Nat.sub_0_r, firstn_all. auto. Qed.


Lemma check_inputs_ok r k Q u : 0 < r -> is_mat r k Q -> aligned k u ->
  check_inputs Q u = Ok (match u with None => None | Some u => Some (two_dim u) end).
Proof. intros Hr HQ Hu. unfold check_inputs. rewrite (ncols_is_mat r k Q HQ Hr). destruct u as [[v|A]|]; cbn in *; auto.
  - rewrite Hu, Nat.eqb_refl. reflexivity.
  - destruct Hu as [m [Hm HA]]. rewrite (ncols_is_mat m k A HA Hm), Nat.eqb_refl. reflexivity. Qed.

Lemma ufd_estimate_ok e r k Q u : 0 < r -> is_mat r k Q -> enough (u_scheme e) k -> aligned k u ->
  exists S D, ufd_estimate e (M Q) u = Ok (S, D, match u with None => None | Some u => Some (ufd_mask e (M (two_dim u))) end) /\
  M S = ufd_mask e (M Q) /\ is_mat r (kept (u_scheme e) k) S /\ is_mat r (kept (u_scheme e) k) D.
Proof. intros Hr HQ Hk Hu. unfold ufd_estimate. rewrite (check_inputs_ok r k) by auto. cbn [bind].
  rewrite (mask_mat e r k Q HQ Hk). unfold enough, kept, firstkept in *. destruct (scheme_mode (u_scheme e)) as [md|] eqn:Em.
  - destruct (scheme_ok (u_scheme e) md r k Q (ufd_dt e) (match u with None => None | Some u => Some (M (two_dim u)) end) Em Hr HQ Hk) as [D [E1 [E2 _]]].
    assert (Ha : first_col md (scheme_order (u_scheme e)) <= scheme_order (u_scheme e)) by (apply first_col_le; intros ->; apply tab_even; auto).
    eexists. exists D. split; [|split; [reflexivity|split; [|exact E2]]].
    + destruct u; rewrite E1; do 3 f_equal. unfold ufd_mask. rewrite Em. reflexivity.
    + apply (mcols_shape' r k); auto; lia.
  - destruct (ord_of _ Em) as [Hp Hrun]. rewrite Hrun. unfold mixed.
    destruct (ddt_uniform_shape (scheme_order (u_scheme e)) r k (ufd_dt e) Q Hp Hr HQ Hk) as [D [E1 E2]]. rewrite E1. cbn [bind].
    exists Q, D. split; [|split; [|split; auto]].
    + destruct u; auto. unfold ufd_mask. rewrite Em. reflexivity.
    + f_equal. unfold mcols. destruct HQ as [_ H2]. rewrite <- map_id at 1. apply map_ext_in. intros row Hrow. rewrite Forall_forall in H2.
      unfold slice. cbn [skipn]. rewrite <- (H2 row Hrow), Nat.add_0_l, Nat.sub_0_r, firstn_all. auto. Qed.

Lemma ufd_estimate_exact e r k t0 dt Q u cs : 0 < r -> enough (u_scheme e) k -> aligned k u -> dt <> 0%R ->
  length (u_time e) = k -> 2 <= k -> (forall j, j < k -> vget (u_time e) j = grid t0 dt j) ->
  (forall i, i < r -> length (cs i) <= S (scheme_order (u_scheme e))) -> samples r k (vget (u_time e)) (fun i => peval (cs i)) Q ->
  exists S D U tm, ufd_estimate e (M Q) u = Ok (S, D, U) /\ ufd_mask e (V (u_time e)) = V tm /\ length tm = kept (u_scheme e) k /\
  forall i j, i < r -> j < kept (u_scheme e) k -> mget S i j = peval (cs i) (vget tm j) /\ derivable_pt_lim (peval (cs i)) (vget tm j) (mget D i j).
Proof. intros Hr Hk Hu Hdt Hlt H2 Ht Hcs [HQ HS].
  assert (HSg : samples r k (grid t0 dt) (fun i => peval (cs i)) Q). { split; auto. intros. rewrite HS by auto. rewrite Ht; auto. }
  assert (Edt : ufd_dt e = dt). { unfold ufd_dt. rewrite !Ht by lia. unfold grid. cbn. ring. }
  rewrite (mask_vec e k) by auto.
  assert (Hfk : firstkept (u_scheme e) + kept (u_scheme e) k <= k).
  { unfold enough, kept, firstkept in *. destruct (scheme_mode _) as [md|] eqn:Em; [|lia]. assert (first_col md (scheme_order (u_scheme e)) <= scheme_order (u_scheme e)) by (apply first_col_le; intros ->; apply tab_even; auto). lia. }
  assert (Htm : forall j, j < kept (u_scheme e) k -> vget (slice (firstkept (u_scheme e)) (firstkept (u_scheme e) + kept (u_scheme e) k) (u_time e)) j = grid t0 dt (firstkept (u_scheme e) + j)).
  { intros j Hj. unfold vget. rewrite slice_nth by lia. fold (vget (u_time e) (firstkept (u_scheme e) + j)). apply Ht. lia. }
  unfold ufd_estimate. rewrite (check_inputs_ok r k) by auto. cbn [bind]. rewrite Edt.
  destruct (scheme_mode (u_scheme e)) as [md|] eqn:Em.
  - destruct (scheme_exact (u_scheme e) md r k Q dt t0 (match (match u with None => None | Some u => Some (two_dim u) end) with None => None | Some U => Some (M U) end) cs Em Hr Hdt) as [S [D [U [E1 [_ [_ E4]]]]]]; auto.
    { unfold enough in Hk. rewrite Em in Hk. auto. }
    exists S, D, U. eexists. split; [exact E1|]. split; [reflexivity|]. split; [rewrite slice_length; lia|].
    unfold kept, firstkept in *. rewrite Em in *. intros i j Hi Hj. rewrite Htm by auto. destruct (E4 i j Hi Hj) as [F1 F2]. split; auto. rewrite F1.
    destruct HSg as [_ HSg]. apply HSg; auto. lia.
  - destruct (ord_of _ Em) as [Hp Hrun]. rewrite Hrun. unfold mixed. unfold enough in Hk. rewrite Em in Hk.
    destruct (ddt_uniform_exact _ r k t0 dt cs Q Hp Hr Hdt Hk Hcs HSg) as [D [E1 [E2 E3]]]. rewrite E1. cbn [bind].
    exists Q, D. eexists. eexists. split; [reflexivity|]. split; [reflexivity|]. split; [rewrite slice_length; lia|].
    unfold kept, firstkept in *. rewrite Em in *. intros i j Hi Hj. rewrite Htm by auto. cbn [Nat.add]. split.
    + destruct HSg as [_ HSg]. apply HSg; auto.
    + rewrite E3 by auto. apply peval_deriv. Qed.

Lemma ufd_short e r k Q u : 0 < r -> is_mat r k Q -> ~ enough (u_scheme e) k -> aligned k u -> ufd_estimate e (M Q) u = Err ValueError.
Proof. intros Hr HQ Hk Hu. unfold ufd_estimate. rewrite (check_inputs_ok r k) by auto. cbn [bind]. unfold enough in Hk.
  destruct (scheme_mode (u_scheme e)) as [md|] eqn:Em.
  - apply (scheme_short _ md r k); auto. lia.
  - destruct (ord_of _ Em) as [Hp Hrun]. rewrite Hrun. unfold mixed. rewrite (ddt_uniform_short _ r k) by (auto; lia). reflexivity. Qed.
Lemma ufd_misaligned e r k m k' Q U : 0 < r -> is_mat r k Q -> 0 < m -> is_mat m k' U -> k' <> k ->
  ufd_estimate e (M Q) (Some (M U)) = Err DimensionalityError.
Proof. intros Hr HQ Hm HU Hk. unfold ufd_estimate, check_inputs. rewrite (ncols_is_mat r k Q HQ Hr), (ncols_is_mat m k' U HU Hm).
  destruct (Nat.eqb_spec k' k); [congruence|]. reflexivity. Qed.

(* the constructor accepts every exactly uniform time domain with at least two entries *)
Lemma ufd_init_uniform t0 dt t s : 2 <= length t -> (forall j, j < length t -> vget t j = grid t0 dt j) ->
  ufd_init (V t) (Some s) = Ok {| u_time := t; u_scheme := s |}.
Proof. intros H2 Ht. unfold ufd_init. assert (Hd : forall x, In x (diff t) -> x = dt).
  { unfold diff. intros x Hx. apply (In_nth _ _ 0%R) in Hx. destruct Hx as [j [Hj <-]]. rewrite map2_length in Hj.
    assert (length (tl t) = length t - 1) by (destruct t; cbn; lia). rewrite H in Hj.
    rewrite (map2_nth _ _ _ _ 0%R 0%R) by lia. replace (nth j (tl t) 0%R) with (nth (S j) t 0%R) by (destruct t; [destruct j; reflexivity|reflexivity]). fold (vget t (S j)). fold (vget t j). rewrite !Ht by lia. unfold grid. rewrite S_INR. ring. }
  destruct (diff t) as [|d0 ds] eqn:E.
  - exfalso. destruct t as [|a [|b t]]; cbn in *; try lia. discriminate.
  - assert (d0 = dt) by (apply Hd; left; auto). subst d0.
    replace (vallclose (dt :: ds) dt) with true; [reflexivity|]. symmetry. unfold vallclose. apply forallb_forall. intros x Hx. rewrite (Hd x Hx).
    unfold rleb. destruct (Rle_dec _ _) as [|n]; auto. exfalso. apply n. replace (dt - dt)%R with 0%R by ring. rewrite Rabs_R0.
    assert (0 <= Rabs dt)%R by apply Rabs_pos. assert (0 < / 10 ^ 8)%R by (apply Rinv_0_lt_compat; lra). assert (0 < / 10 ^ 5)%R by (apply Rinv_0_lt_compat; lra). nra. Qed.

(* ---- np.gradient on quadratics ------------------------------------------------------------------------------------------- *)
Lemma grad_quad cs t f : length cs <= 3 -> 3 <= length t -> (forall j, S j < length t -> (vget t j < vget t (S j))%R) ->
  length f = length t -> (forall j, j < length t -> vget f j = peval cs (vget t j)) ->
  forall j, j < length t -> vget (gradient f t) j = dpeval cs (vget t j).
Proof. intros Hcs H3 Hinc Hf Hs j Hj. unfold gradient. rewrite vget_rows by auto. rewrite (dpeval_pad 3) by auto.
  assert (Hv : forall i, i < length t -> vget f i = bsum 3 (fun k => (nth k cs 0 * vget t i ^ k)%R)). { intros i Hi. rewrite Hs by auto. apply peval_pad; auto. }
  destruct (Nat.eqb_spec j 0) as [->|Hj0]; [|destruct (Nat.eqb_spec j (length t - 1)) as [Ej|Hj1]].
  - unfold grad_first. rewrite !Hv by lia. assert (A := Hinc 0 ltac:(lia)). assert (B := Hinc 1 ltac:(lia)).
    cbn [bsum pow INR Nat.sub]. field. repeat split; lra.
  - unfold grad_last. rewrite !Hv by lia. subst j. assert (A := Hinc (length t - 3) ltac:(lia)). assert (B := Hinc (length t - 2) ltac:(lia)).
    replace (S (length t - 3)) with (length t - 2) in A by lia. replace (S (length t - 2)) with (length t - 1) in B by lia.
    cbn [bsum pow INR]. change (1 - 1) with 0. change (2 - 1) with 1. change (0 - 1) with 0. cbn [pow]. field. repeat split; lra.
  - unfold grad_mid. rewrite !Hv by lia. assert (A := Hinc (j - 1) ltac:(lia)). assert (B := Hinc j ltac:(lia)).
    replace (S (j - 1)) with j in A by lia. rewrite <- (Nat.add_1_r j) in B.
    cbn [bsum pow INR]. change (1 - 1) with 0. change (2 - 1) with 1. change (0 - 1) with 0. cbn [pow]. field. repeat split; lra. Qed.
Lemma gradient_length f t : length (gradient f t) = length t. Proof. unfold gradient. rewrite map_length, seq_length. auto. Qed.

Lemma np_gradient_exact r k t cs Q : 0 < r -> 3 <= k -> length t = k -> (forall j, S j < k -> (vget t j < vget t (S j))%R) ->
  (forall i, i < r -> length (cs i) <= 3) -> samples r k (vget t) (fun i => peval (cs i)) Q ->
  exists D, np_gradient Q t = Ok D /\ is_mat r k D /\ forall i j, i < r -> j < k -> derivable_pt_lim (peval (cs i)) (vget t j) (mget D i j).
Proof. intros Hr H3 Hl Hinc Hcs [HQ HS]. unfold np_gradient. destruct (Nat.ltb_spec (length t) 3); [lia|]. eexists. split; [reflexivity|]. split.
  - apply is_mat_map_gen; [apply HQ|]. intros x Hx. rewrite gradient_length. auto.
  - intros i j Hi Hj. unfold mget. rewrite (nth_map_in _ _ _ _ []) by (rewrite (proj1 HQ); auto). fold (vget (gradient (nth i Q []) t) j).
    rewrite (grad_quad (cs i)); auto; try lia.
    + apply peval_deriv.
    + intros; apply Hinc; lia.
    + rewrite Hl. destruct HQ as [H1 H2]. rewrite Forall_forall in H2. apply H2. apply nth_In. lia.
    + intros jj Hjj. apply HS; auto; lia. Qed.
Lemma ddt_nonuniform_exact r k t cs Q : 0 < r -> 3 <= k -> length t = k -> (forall j, S j < k -> (vget t j < vget t (S j))%R) ->
  (forall i, i < r -> length (cs i) <= 3) -> samples r k (vget t) (fun i => peval (cs i)) Q ->
  exists D, ddt_nonuniform (M Q) (V t) = Ok D /\ is_mat r k D /\ forall i j, i < r -> j < k -> derivable_pt_lim (peval (cs i)) (vget t j) (mget D i j).
Proof. intros Hr H3 Hl Hinc Hcs HS. unfold ddt_nonuniform. rewrite (ncols_is_mat r k Q (proj1 HS) Hr), Hl, Nat.eqb_refl. cbn [negb].
  apply np_gradient_exact; auto. Qed.

(* ---- ddt: which function is called ------------------------------------------------------------------------------------------ *)
Lemma ddt_dispatch Q args kwargs :
  (forall x, ddt (M Q) [AFloat x] [] = ddt_uniform (M Q) (DtNum x) 2) /\
  (forall x o, ddt (M Q) [x; o] [] = ddt_uniform (M Q) (as_dt x) (as_order o)) /\
  (forall x o, ddt (M Q) [x] [(Korder, o)] = ddt_uniform (M Q) (as_dt x) (as_order o)) /\
  (forall x, ddt (M Q) [] [(Kdt, x)] = ddt_uniform (M Q) (as_dt x) 2) /\
  (forall x o, ddt (M Q) [] [(Kdt, x); (Korder, o)] = ddt_uniform (M Q) (as_dt x) (as_order o)) /\
  (forall x o, ddt (M Q) [] [(Korder, o); (Kdt, x)] = ddt_uniform (M Q) (as_dt x) (as_order o)) /\
  (forall t, ddt (M Q) [AArray t] [] = ddt_nonuniform (M Q) t) /\
  (forall t, ddt (M Q) [] [(Kt, AArray t)] = ddt_nonuniform (M Q) t) /\
  (length args + length kwargs = 0 \/ 3 <= length args + length kwargs -> ddt (M Q) args kwargs = Err TypeError).
Proof. repeat split; auto. intros [K|K]; unfold ddt.
  - rewrite K. reflexivity.
  - destruct (length args + length kwargs) as [|[|[|n]]]; try lia. reflexivity. Qed.

(* ---- the remaining statements of Prop_Ddt.v ---------------------------------------------------------------------------------- *)
Lemma scheme_inputs s md r k Q dt : scheme_mode s = Some md -> 0 < r -> is_mat r k Q ->
  let p := scheme_order s in let a := first_col md p in
  (p <= k -> forall m U, is_mat m k U -> exists S D U', run_scheme s Q dt (Some (M U)) = Ok (S, D, Some (M U')) /\
     is_mat m (k - p) U' /\ forall i j, i < m -> j < k - p -> mget U' i j = mget U i (a + j)) /\
  (p <= k -> forall v, is_vec k v -> exists S D v', run_scheme s Q dt (Some (V v)) = Ok (S, D, Some (V v')) /\
     is_vec (k - p) v' /\ forall j, j < k - p -> vget v' j = vget v (a + j)) /\
  (k < p -> forall u, run_scheme s Q dt u = Err ValueError).
Proof. intros Hm Hr HQ p a. assert (Ha : a <= p) by (apply first_col_le; intros ->; apply tab_even; auto).
  assert (Hp : 0 < p) by apply scheme_order_pos. assert (He : md = Ctr -> exists h, p = 2 * h) by (intros ->; apply tab_even; auto).
  split; [|split].
  - intros Hk m U HU. destruct (scheme_ok s md r k Q dt (Some (M U)) Hm Hr HQ Hk) as [D [E1 _]]. fold p a in E1. cbn [cols_arr] in E1.
    rewrite (cols_mat md p m k U Hp He Hk HU) in E1. fold a in E1. eexists. exists D. eexists. split; [exact E1|].
    split; [apply (mcols_shape' m k); auto; lia|]. intros i j Hi Hj. apply (mcols_entry m k); auto; lia.
  - intros Hk v Hv. destruct (scheme_ok s md r k Q dt (Some (V v)) Hm Hr HQ Hk) as [D [E1 _]]. fold p a in E1. cbn [cols_arr] in E1.
    rewrite py_cols in E1 by (auto; rewrite Hv; auto). fold a in E1. rewrite Hv in E1. eexists. exists D. eexists. split; [exact E1|].
    split; [unfold is_vec; rewrite slice_length; rewrite ?Hv; lia|]. intros j Hj. unfold vget. rewrite slice_nth by lia. reflexivity.
  - intros Hk u. apply (scheme_short s md r k); auto. Qed.
Lemma samples_case : samples 1 4 (grid 1 (1/2)) (fun _ => peval [0; 0; 1]%R) [[1; 9/4; 4; 25/4]]%R /\ scheme_mode Fwd2 = Some Fwd.
Proof. split; auto. split; [repeat constructor|]. intros [|i] j Hi Hj; [|lia]. destruct j as [|[|[|[|j]]]]; try lia; unfold grid, peval; cbn; lra. Qed.
Lemma samples_case2 : samples 1 3 (grid 0 1) (fun _ => peval [0; 0; 1]%R) [[0; 1; 4]]%R.
Proof. split; [repeat constructor|]. intros [|i] j Hi Hj; [|lia]. destruct j as [|[|[|j]]]; try lia; unfold grid, peval; cbn; lra. Qed.
Lemma ufd_not_aligned : exists (e : ufd) (Q : mat) out,
  ufd_init (V [0; 1]%R) (Some Fwd1) = Ok e /\ is_mat 1 3 Q /\ ufd_estimate e (M Q) None = Ok out.
Proof. exists {| u_time := [0; 1]%R; u_scheme := Fwd1 |}, [[0; 0; 0]]%R.
  destruct (ufd_estimate_ok {| u_time := [0; 1]%R; u_scheme := Fwd1 |} 1 3 [[0; 0; 0]]%R None) as [S [D [E _]]];
    [lia|repeat constructor|cbn; lia|exact I|].
  eexists. split; [|split; [repeat constructor|exact E]]. apply (ufd_init_uniform 0 1); cbn; auto.
  intros [|[|j]] Hj; unfold grid; cbn; try lra. lia. Qed.
Lemma ddt_uniform_deriv p r k t0 dt cs Q : (p = 2 \/ p = 4 \/ p = 6) -> 0 < r -> dt <> 0%R -> p < k ->
  (forall i, i < r -> length (cs i) <= S p) -> samples r k (grid t0 dt) (fun i => peval (cs i)) Q ->
  exists D, ddt_uniform (M Q) (DtNum dt) p = Ok D /\ is_mat r k D /\
  forall i j, i < r -> j < k -> derivable_pt_lim (peval (cs i)) (grid t0 dt j) (mget D i j).
Proof. intros Hp Hr Hdt Hk Hcs HS. destruct (ddt_uniform_exact p r k t0 dt cs Q Hp Hr Hdt Hk Hcs HS) as [D [E1 [E2 E3]]].
  exists D. split; auto. split; auto. intros i j Hi Hj. rewrite E3 by auto. apply peval_deriv. Qed.
Lemma ddt_uniform_rejects :
  (forall v dt p, ddt_uniform (V v) dt p = Err DimensionalityError) /\
  (forall Q p, ddt_uniform (M Q) DtOther p = Err TypeError) /\
  (forall Q dt p, p <> 2 -> p <> 4 -> p <> 6 -> ddt_uniform (M Q) (DtNum dt) p = Err NotImplementedError) /\
  (forall p r k Q dt, (p = 2 \/ p = 4 \/ p = 6) -> 0 < r -> is_mat r k Q -> k <= p -> ddt_uniform (M Q) (DtNum dt) p = Err ValueError).
Proof. split; [reflexivity|]. split; [reflexivity|]. split.
  - intros Q dt p H2 H4 H6. destruct p as [|[|[|[|[|[|[|p]]]]]]]; try congruence; reflexivity.
  - intros. eapply ddt_uniform_short; eauto. Qed.
Lemma ddt_int_step : exists Q D, ddt_uniform (M Q) (DtNum (INR 1)) 2 = Ok D /\ ddt (M Q) [AInt 1] [] = Err TypeError.
Proof. destruct (ddt_uniform_shape 2 1 3 (INR 1) [[0; 0; 0]]%R) as [D [E _]]; auto; try lia; [repeat constructor|].
  exists [[0; 0; 0]]%R, D. split; auto. Qed.

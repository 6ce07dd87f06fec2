(* RegselEx.v -- concrete searches, the times of the test, and the claims that fail. *)
From Coq Require Import ZArith Reals Lia Lra String.
From Verif Require Import LinAlg MatAlg PreProofs MonoHist MonoFinal MonoEx RomParts RomProofs RomFit RomEx GridFinal.
From Verif Require Export RegselContinuous.
#[local] Open Scope nat_scope.

(* ---- the times of the test ---- *)
Lemma telescope t : lsum (map2 Rminus (tl t) t) = (last t 0 - hd 0 t)%R.
Proof. induction t as [|a t IH]; [cbn; unfold lsum; cbn; lra|]. destruct t as [|b t]; [cbn; unfold lsum; cbn; lra|]. change (map2 Rminus (tl (a :: b :: t)) (a :: b :: t)) with ((b - a)%R :: map2 Rminus t (b :: t)).
  change (lsum ((b - a)%R :: map2 Rminus t (b :: t))) with ((b - a) + lsum (map2 Rminus t (b :: t)))%R. cbn [tl] in IH. rewrite IH. cbn [hd]. change (last (a :: b :: t) 0%R) with (last (b :: t) 0%R). lra. Qed.
Lemma linspace_length a b n : length (linspace a b n) = n.
Proof. destruct n as [|[|n]]; auto. unfold linspace. rewrite map_length, seq_length. auto. Qed.
Lemma linspace_get a b n i : 2 <= n -> i < n -> vget (linspace a b n) i = (a + INR i * ((b - a) / INR (n - 1)))%R.
Proof. intros Hn Hi. destruct n as [|[|n]]; try lia. unfold linspace, vget. rewrite (nth_map_in _ _ i 0%R 0) by (rewrite seq_length; auto). rewrite seq_nth by auto. reflexivity. Qed.
Lemma linspace_in a b n i : (a <= b)%R -> i < n -> (a <= vget (linspace a b n) i <= b)%R.
Proof. intros Hab Hi. destruct n as [|[|n]]; [lia|replace i with 0 by lia; cbn; lra|]. rewrite linspace_get by lia. assert (Hp : (0 < INR (S (S n) - 1))%R) by (apply lt_0_INR; lia).
  assert (Hq : (0 <= INR i <= INR (S (S n) - 1))%R) by (split; [apply pos_INR|apply le_INR; lia]). set (m := INR (S (S n) - 1)) in *.
  replace (INR i * ((b - a) / m))%R with ((INR i / m) * (b - a))%R by (field; lra). assert (0 <= INR i / m <= 1)%R.
  { split; [apply Rmult_le_pos; [lra|left; apply Rinv_0_lt_compat; lra]|]. apply (Rmult_le_reg_r m); auto. unfold Rdiv. rewrite Rmult_assoc, Rinv_l by lra. lra. } nra. Qed.
Lemma linspace_incr a b n i j : (a < b)%R -> i < j -> j < n -> (vget (linspace a b n) i < vget (linspace a b n) j)%R.
Proof. intros Hab Hij Hj. rewrite !linspace_get by lia. assert (Hp : (0 < INR (n - 1))%R) by (apply lt_0_INR; lia). assert (INR i < INR j)%R by (apply lt_INR; auto). assert (0 < (b - a) / INR (n - 1))%R by (apply Rdiv_lt_0_compat; lra). nra. Qed.

Lemma test_times len t td : (0 < len)%R -> extend_times len t = Ok td ->
  let dt := ((last t 0 - hd 0 t) / INR (length t - 1))%R in
  2 <= length t /\ (0 < dt)%R /\ exists extra, td = t ++ extra /\ length extra = Z.to_nat (Int_part (len / dt)) /\
    (forall x, In x extra -> (last t 0 + dt <= x <= last t 0 + dt + len)%R) /\
    (forall i j, i < j -> j < length extra -> (vget extra i < vget extra j)%R) /\
    ((2 * dt <= len)%R -> last td 0%R = (last t 0 + dt + len)%R).
Proof. intros Hl E dt. unfold extend_times in E. destruct (Rlt_dec 0 len) as [_|]; [|lra]. destruct (Nat.ltb_spec (length t) 2) as [|H2]; [discriminate|]. rewrite telescope in E. fold dt in E. destruct (Rle_dec dt 0) as [|Hdt]; [discriminate|]. injection E as <-.
  split; [auto|]. split; [lra|]. set (n := Z.to_nat (Int_part (len / dt))). exists (map (Rplus (last t 0%R)) (linspace dt (dt + len) n)). split; [auto|]. split; [rewrite map_length; apply linspace_length|].
  assert (HG : forall i, i < n -> vget (map (Rplus (last t 0%R)) (linspace dt (dt + len) n)) i = (last t 0 + vget (linspace dt (dt + len) n) i)%R).
  { intros i Hi. unfold vget at 1. rewrite (nth_map_in _ _ i 0%R 0%R) by (rewrite linspace_length; auto). reflexivity. }
  split; [|split].
  - intros x Hx. apply (In_nth _ _ 0%R) in Hx. rewrite map_length, linspace_length in Hx. destruct Hx as (i & Hi & <-). change (nth i ?l 0%R) with (vget l i). rewrite HG by auto. assert (HB := linspace_in dt (dt + len) n i ltac:(lra) Hi). lra.
  - intros i j Hij Hj. rewrite map_length, linspace_length in Hj. rewrite !HG by lia. assert (HB := linspace_incr dt (dt + len) n i j ltac:(lra) Hij Hj). lra.
  - intros H2dt. assert (Hn : 2 <= n).
    { assert (Hq : (2 <= len / dt)%R). { apply (Rmult_le_reg_r dt); [lra|]. unfold Rdiv. rewrite Rmult_assoc, Rinv_l by lra. lra. }
      destruct (base_Int_part (len / dt)) as [_ HI]. assert (1 < Int_part (len / dt))%Z; [|unfold n; lia]. apply lt_IZR. lra. }
    assert (HLn : nth (n - 1) (map (Rplus (last t 0%R)) (linspace dt (dt + len) n)) 0%R = (last t 0 + dt + len)%R).
    { change (nth (n - 1) ?l 0%R) with (vget l (n - 1)). rewrite HG by lia. rewrite linspace_get by lia. assert (0 < INR (n - 1))%R by (apply lt_0_INR; lia). field. lra. }
    rewrite <- HLn. set (ex := map (Rplus (last t 0%R)) (linspace dt (dt + len) n)). assert (HLe : length ex = n) by (unfold ex; rewrite map_length; apply linspace_length).
    replace (n - 1) with (length ex - 1) by lia. assert (ex <> []) by (intros He; rewrite He in HLe; cbn in HLe; lia). clearbody ex. clear - H. revert H.
    induction t as [|a t IH]; intros H; cbn [app].
    + induction ex as [|b ex IHe]; [congruence|]. destruct ex as [|b' ex]; [reflexivity|]. change (last (b :: b' :: ex) 0%R) with (last (b' :: ex) 0%R). rewrite IHe by discriminate. cbn [length]. replace (S (S (length ex)) - 1) with (S (S (length ex) - 1)) by lia. reflexivity.
    + destruct (t ++ ex) as [|b l] eqn:El; [destruct t; [cbn in El; congruence|discriminate]|]. change (last (a :: b :: l) 0%R) with (last (b :: l) 0%R). auto. Qed.
(* test times may end before test_time_length is over; with test_time_length < dt there are none *)
Lemma short_test : exists len t td td', (0 < len)%R /\ strictly_ordered t /\ extend_times len t = Ok td /\ (last td 0 < last t 0 + len)%R /\ extend_times (len / 3) t = Ok td' /\ td' = t.
Proof. exists (3 / 2)%R, [0; 1]%R, [0; 1; 2]%R, [0; 1]%R. split; [lra|]. split. { intros [|[|i]] [|[|j]] Hij Hj; cbn in *; try lia; lra. }
  assert (HI : forall x z, (IZR z <= x < IZR z + 1)%R -> Int_part x = z). { intros x z [Ha Hb]. symmetry. unfold Int_part. assert (z + 1 = up x)%Z; [apply tech_up; rewrite plus_IZR; lra|lia]. }
  assert (HD : (lsum (map2 Rminus (tl [0; 1]) [0; 1]) / INR (2 - 1))%R = 1%R) by (rewrite telescope; cbn; field).
  split; [|split; [cbn; lra|split; [|reflexivity]]].
  - unfold extend_times. destruct (Rlt_dec 0 (3 / 2)); [|lra]. change (length [0; 1]%R) with 2. cbn [Nat.ltb Nat.leb]. rewrite HD. destruct (Rle_dec 1 0); [lra|]. rewrite (HI (3 / 2 / 1)%R 1%Z) by lra. cbn. do 3 f_equal; lra.
  - unfold extend_times. destruct (Rlt_dec 0 (3 / 2 / 3)); [|lra]. change (length [0; 1]%R) with 2. cbn [Nat.ltb Nat.leb]. rewrite HD. destruct (Rle_dec 1 0); [lra|]. rewrite (HI (3 / 2 / 3 / 1)%R 0%Z) by lra. cbn. reflexivity. Qed.

(* ---- a concrete search ---- *)
Definition svd2 (D : mat) : res (mat * vec * mat) :=
  if mat_eq_dec D [[3]; [4]]%R then Ok ([[3 / 5]; [4 / 5]]%R, [5]%R, [[1]]%R) else if mat_eq_dec D [[0]; [0]]%R then Ok ([[1]; [0]]%R, [0]%R, [[1]]%R) else Err LinAlgError.
Definition X2 : lsx := {| x_lstsq := lst0; x_lsvd := svd2; x_lsolve := fun _ _ => Err LinAlgError |}.
Lemma svd2_a : svd2 [[3]; [4]]%R = Ok ([[3 / 5]; [4 / 5]]%R, [5]%R, [[1]]%R).
Proof. unfold svd2. destruct (mat_eq_dec _ _); congruence. Qed.
Lemma svd2_b : svd2 [[0]; [0]]%R = Ok ([[1]; [0]]%R, [0]%R, [[1]]%R).
Proof. unfold svd2. destruct (mat_eq_dec _ _) as [E|_]; [exfalso; injection E; lra|]. destruct (mat_eq_dec _ _); congruence. Qed.
Lemma X2_ok : lsx_ok X2.
Proof. split; [apply X0_ok|]. split; [|unfold solve_spec; cbn; intros; discriminate].
  intros k d A Phi s PsiT Hk Hd HA E. cbn [X2 x_lsvd] in E. unfold svd2 in E.
  assert (HG : forall a b x y s0, A = [[a]; [b]]%R -> (x * x + y * y = 1)%R -> (0 <= s0)%R -> (a = s0 * x)%R -> (b = s0 * y)%R -> Phi = [[x]; [y]]%R -> s = [s0] -> PsiT = [[1]]%R ->
    let p := Nat.min k d in is_mat k p Phi /\ is_vec p s /\ is_mat p d PsiT /\
    (forall i j, (i < p)%nat -> (j < p)%nat -> bsum k (fun t => (mget Phi t i * mget Phi t j)%R) = (if Nat.eqb i j then 1 else 0)%R) /\
    (forall i j, (i < p)%nat -> (j < p)%nat -> bsum d (fun l => (mget PsiT i l * mget PsiT j l)%R) = (if Nat.eqb i j then 1 else 0)%R) /\
    (forall i, (i < p)%nat -> (0 <= vget s i)%R) /\ (forall i j, (i <= j)%nat -> (j < p)%nat -> (vget s j <= vget s i)%R) /\
    (forall t l, (t < k)%nat -> (l < d)%nat -> mget A t l = bsum p (fun i => (vget s i * (mget Phi t i * mget PsiT i l))%R))).
  { intros a b x y s0 -> Hxy Hs Ha Hb -> -> ->. assert (k = 2) by (symmetry; apply HA). assert (d = 1) by (symmetry; exact (ncols_is_mat _ _ _ HA Hk)). subst k d. cbn [Nat.min].
    split; [split; repeat constructor|]. split; [reflexivity|]. split; [split; repeat constructor|]. split. { intros [|i] [|j] Hi Hj; try lia. cbn. lra. } split. { intros [|i] [|j] Hi Hj; try lia. cbn. lra. }
    split. { intros [|i] Hi; [cbn; auto|lia]. } split. { intros [|i] [|j] Hi Hj; try lia. lra. } intros [|[|t]] [|l] Ht Hl; try lia; cbn; lra. }
  destruct (mat_eq_dec A _) as [->|]; [|destruct (mat_eq_dec A _) as [->|]; [|discriminate]]; inversion E; subst Phi s PsiT.
  - apply (HG 3 4 (3 / 5) (4 / 5) 5)%R; try reflexivity; lra.
  - apply (HG 0 0 1 0 0)%R; try reflexivity; lra. Qed.

Definition pre2 : svdpre := {| sp_D := [[3]; [4]]%R; sp_Z := [[4; 19 / 2]]%R; sp_svals := [5]%R; sp_ZPhi := [[10]]%R; sp_PsiT := [[1]]%R |}.
Definition pre0 : svdpre := {| sp_D := [[0]; [0]]%R; sp_Z := [[0; 0]]%R; sp_svals := [0]%R; sp_ZPhi := [[0]]%R; sp_PsiT := [[1]]%R |}.
Definition gen (k : kind) (ops : list mop) (rr : option nat) (g : option R) (pre : option svdpre) : model :=
  {| m_kind := k; m_frozen := false; m_ops := ops; m_infer := [0]; m_known := []; m_hasin := false; m_r := rr; m_m := Some 0; m_intrusive := false; m_solver := Some (LL2 {| l2_reg := g; l2_pre := pre |}) |}.
Definition blank (k : kind) : model := gen k [unk CLin] None (Some 1%R) None.
Definition fac (p : param) : res sreg := match p with SpecGrid.PS (F x) => Ok (GL2 (RScalar x)) | _ => Err ValueError end.
Lemma base2 : svd_fit svd2 (M [[3]; [4]]%R) (M [[4; 19 / 2]]%R) = Ok pre2.
Proof. unfold svd_fit. cbn -[svd2]. rewrite svd2_a. cbn. unfold pre2. repeat f_equal. lra. Qed.
Lemma base0 : svd_fit svd2 (M [[0]; [0]]%R) (M [[0; 0]]%R) = Ok pre0.
Proof. unfold svd_fit. cbn -[svd2]. rewrite svd2_b. cbn. unfold pre0. repeat f_equal. lra. Qed.
Lemma fit2 k : fit_solver X2 (blank k) (M [[3; 4]]%R) (M [[4; 19 / 2]]%R) None = (gen k [unk CLin] (Some 1) (Some 1%R) (Some pre2), Ok tt).
Proof. unfold fit_solver. cbn -[svd2 lsq_fit]. cbn [lsq_fit x_lsvd X2]. unfold l2_fit. rewrite base2. reflexivity. Qed.
Lemma fit0 k : fit_solver X2 (blank k) (M [[0; 0]]%R) (M [[0; 0]]%R) None = (gen k [unk CLin] (Some 1) (Some 1%R) (Some pre0), Ok tt).
Proof. unfold fit_solver. cbn -[svd2 lsq_fit]. cbn [lsq_fit x_lsvd X2]. unfold l2_fit. rewrite base0. reflexivity. Qed.
(* the model for the regularizer g *)
Lemma refit2 k g : (0 < g)%R -> retrained X2 fac (gen k [unk CLin] (Some 1) (Some 1%R) (Some pre2)) (SpecGrid.PS (F g)) (gen k [knw (OLin [[50 / (25 + g * g)]]%R)] (Some 1) (Some g) (Some pre2)).
Proof. intros Hg. exists (GL2 (RScalar g)), (LL2 {| l2_reg := Some 1%R; l2_pre := Some pre2 |}), (gen k [unk CLin] (Some 1) (Some g) (Some pre2)). split; [reflexivity|]. split; [reflexivity|]. split; [reflexivity|]. split.
  - unfold set_regularizer. cbn [gen m_solver lsq_setreg wrap]. unfold l2_set, wrap. destruct (Rlt_dec g 0) as [|_]; [lra|]. reflexivity.
  - unfold refit. cbn [with_solver gen m_intrusive m_solver lsq_solve l2_solve l2_pre l2_reg]. unfold l2_core. cbn [pre2 sp_Z sp_svals nrows length repeat]. cbn [mapM]. unfold l2_weights. cbn [mapM bind].
    destruct (Req_EM_T _ 0) as [E|_]; [nra|]. cbn. replace (10 * (5 / (5 * 5 + g * g)) * 1 + 0)%R with (50 / (25 + g * g))%R by (field; nra). reflexivity. Qed.
Lemma refit0 k g : (0 < g)%R -> retrained X2 fac (gen k [unk CLin] (Some 1) (Some 1%R) (Some pre0)) (SpecGrid.PS (F g)) (gen k [knw (OLin [[0]]%R)] (Some 1) (Some g) (Some pre0)).
Proof. intros Hg. exists (GL2 (RScalar g)), (LL2 {| l2_reg := Some 1%R; l2_pre := Some pre0 |}), (gen k [unk CLin] (Some 1) (Some g) (Some pre0)). split; [reflexivity|]. split; [reflexivity|]. split; [reflexivity|]. split.
  - unfold set_regularizer. cbn [gen m_solver lsq_setreg wrap]. unfold l2_set, wrap. destruct (Rlt_dec g 0) as [|_]; [lra|]. reflexivity.
  - unfold refit. cbn [with_solver gen m_intrusive m_solver lsq_solve l2_solve l2_pre l2_reg]. unfold l2_core. cbn [pre0 sp_Z sp_svals nrows length repeat]. cbn [mapM]. unfold l2_weights. cbn [mapM bind].
    destruct (Req_EM_T _ 0) as [E|_]; [nra|]. cbn. replace (0 * (0 / (0 * 0 + g * g)) * 1 + 0)%R with 0%R by (field; nra). reflexivity. Qed.

(* predict as computed in exact arithmetic; a result of the wrong shape does not fit into the array to be returned *)
Definition pr_exact : dpredict := fun d q N u =>
  match q, MonoModel.predict d q N u with
  | V v, Ok A => if (length A =? length v) && forallb (fun row => length row =? Z.to_nat N) A then Ok (map (map F) A) else Err ValueError
  | _, Err e => Err e
  | M _, _ => Err DimensionalityError
  end.
Lemma pr_exact_steps : steps_well pr_exact.
Proof. intros d q N u s. unfold pr_exact. destruct (MonoModel.predict d (V q) N u) as [A|]; [|discriminate]. destruct (Nat.eqb_spec (length A) (length q)) as [EL|]; [|discriminate]. cbn [andb]. destruct (forallb _ A) eqn:EF; [|discriminate]. intros [= <-].
  rewrite map_length. split; [auto|]. rewrite forallb_forall in EF. apply Forall_forall. intros row Hr. apply in_map_iff in Hr. destruct Hr as (x & <- & Hx). rewrite map_length. apply EF in Hx. now apply Nat.eqb_eq. Qed.
Definition rL (k : kind) : rom := {| rm_parts := noP; rm_ddt := None; rm_model := blank k |}.
Definition rL2 (k : kind) (pre : svdpre) : rom := {| rm_parts := noP; rm_ddt := None; rm_model := gen k [unk CLin] (Some 1) (Some 1%R) (Some pre) |}.
Lemma rL_fit : rom_fit_with (fit_solver X2) (rL KDiscrete) (Several (map M [[[3; 4; 19 / 2]]%R]) None None) false None = (rL2 KDiscrete pre2, Ok (map M [[[3; 4]]%R])).
Proof. unfold rom_fit_with. cbn -[fit_solver]. rewrite fit2. reflexivity. Qed.
Lemma rL_fit0 : rom_fit_with (fit_solver X2) (rL KDiscrete) (Several (map M [[[0; 0; 0]]%R]) None None) false None = (rL2 KDiscrete pre0, Ok (map M [[[0; 0]]%R])).
Proof. unfold rom_fit_with. cbn -[fit_solver]. rewrite fit0. reflexivity. Qed.
Lemma run3 k a g pre x : pr_exact (gen k [knw (OLin [[a]]%R)] (Some 1) g pre) (V [x]) 3%Z None = Ok [[F x; F (a * x); F (a * (a * x))]].
Proof. unfold pr_exact. cbn. change (Pos.to_nat 3) with 3. cbn. repeat rewrite Rplus_0_r. rewrite ?Rplus_0_l. reflexivity. Qed.
Definition bd (a b : R) : strat := Ask (SpecGrid.PS (F ((a + b) / 2))) (fun v => Stop true (SpecGrid.PS (F ((a + b) / 2))) v).
Definition nm (x : list fnum) : strat := Ask (SpecGrid.PV x) (fun v => Stop true (SpecGrid.PV x) v).
Definition tc : dtest := {| dt_ic := V [1]%R; dt_iters := 3%Z; dt_inputs := None; dt_bound := Some 2%R |}.
Definition E34 : mat := [[3; 4]]%R.
Definition m50 (g : R) : model := gen KDiscrete [knw (OLin [[50 / (25 + g * g)]]%R)] (Some 1) (Some g) (Some pre2).
Lemma mean34 : row_mean 2 E34 0 = (7 / 2)%R.
Proof. unfold row_mean. cbn. field. Qed.
Lemma is34 : is_spread 1 2 E34 (1 / 2).
Proof. split.
  - intros [|i] [|[|j]] Hi Hj; try lia; rewrite mean34; cbn; unfold Rabs; destruct Rcase_abs; lra.
  - exists 0, 0. split; [lia|]. split; [lia|]. rewrite mean34. cbn. unfold Rabs; destruct Rcase_abs; lra. Qed.
Lemma spread34 m : is_spread 1 2 E34 m -> m = (1 / 2)%R.
Proof. intros H. eapply spread_unique; [exact H|exact is34]. Qed.
Lemma abs_le a b : (- b <= a <= b)%R -> (Rabs a <= b)%R.
Proof. intros H. unfold Rabs. destruct Rcase_abs; lra. Qed.
Lemma stable5 : stable_discrete pr_exact noP [tc] 5 1 [E34] [None] 1 (m50 5).
Proof. unfold m50. replace (50 / (25 + 5 * 5))%R with 1%R by field. split.
  - constructor; [|constructor]. exists [1]%R. eexists. split; [reflexivity|]. split; [apply run3|]. intros [|i] j Hi Hj; [|cbn in Hi; lia]. change (Z.to_nat (dt_iters tc)) with 3 in Hj.
    destruct j as [|[|[|j]]]; [| | |lia]; (eexists; split; [reflexivity|]); intros b [= <-]; cbn; apply abs_le; lra.
  - constructor; [|constructor]. eexists. split; [apply run3|]. intros [|i] j Hi Hj; [|lia]. change (ncols E34 + Z.to_nat 1) with 3 in Hj. change (ncols E34) with 2.
    destruct j as [|[|[|j]]]; [| | |lia]; (eexists; split; [reflexivity|]); intros m Hm _; rewrite (spread34 m Hm), mean34; cbn; apply abs_le; lra. Qed.
Lemma unstable10 : ~ stable_discrete pr_exact noP [tc] 5 1 [E34] [None] 1 (m50 10).
Proof. unfold m50. replace (50 / (25 + 10 * 10))%R with (2 / 5)%R by field. intros [_ H]. inversion H as [|? ? ? ? (s & E & Hw) _]; subst. assert (Hr := run3 KDiscrete (2 / 5)%R (Some 10%R) (Some pre2) 3%R). unfold continues_discrete in E. change (colv 1 E34 0) with [3%R] in E. change (Z.of_nat (ncols E34) + 1)%Z with 3%Z in E.
  rewrite Hr in E. injection E as <-. destruct (Hw 0 2) as (q & Eq & Hq); [lia|cbn; lia|]. injection Eq as <-. specialize (Hq (1 / 2)%R). change (ncols E34) with 2 in Hq.
  specialize (Hq is34 ltac:(lra)). rewrite mean34 in Hq. unfold Rabs in Hq. destruct Rcase_abs; lra. Qed.
Lemma error5 : exists e, mean_error_discrete pr_exact 1 [E34] [None] 1 (m50 5) e.
Proof. unfold m50. replace (50 / (25 + 5 * 5))%R with 1%R by field. eexists. exists [(sqrt 1 / sqrt 25)%R]. split; [|reflexivity]. constructor; [|constructor]. eexists. split; [apply run3|]. exists [[3; 3]]%R. split; [split; repeat constructor|]. cbn [fst snd]. change (ncols E34) with 2. split; [|split].
  - intros [|i] j Hi Hj; [|lia]. destruct j as [|[|j]]; [| |lia]; cbn; [reflexivity|]. f_equal. field.
  - unfold sumsq, E34. cbn. unfold Rsqr. lra.
  - unfold gap2, sumsq, E34. cbn. unfold Rsqr. do 2 f_equal; [|f_equal]; lra. Qed.
Lemma points_ex q : In q (points (CNums [5; 10]%R)) -> exists g, q = SpecGrid.PS (F g) /\ (0 < g)%R.
Proof. intros [<-|[<-|[]]]; eexists; (split; [reflexivity|lra]). Qed.
Lemma retrained_fun LX factory d p d1 d2 : retrained LX factory d p d1 -> retrained LX factory d p d2 -> d1 = d2.
Proof. intros H1 H2. apply retrained_iff in H1, H2. congruence. Qed.
Lemma predicts_ex q d : In q (points (CNums [5; 10]%R)) -> retrained X2 fac (rm_model (rL2 KDiscrete pre2)) q d -> predicts_discrete pr_exact noP [tc] 1 [E34] [None] 1 d.
Proof. intros Hq Hr. destruct (points_ex q Hq) as (g & -> & Hg). rewrite (retrained_fun _ _ _ _ _ _ Hr (refit2 KDiscrete g Hg)). split.
  - constructor; [|constructor]. intros ic [= <-]. eexists. apply run3.
  - constructor; [|constructor]. eexists. apply run3. Qed.
Lemma noP_trained : trained_parts 1 1 noP. Proof. split; [exact I|reflexivity]. Qed.
Lemma search_ex : exists r', regselect_discrete X2 pr_exact bd nm (rL KDiscrete) (CNums [5; 10]%R) (Single [[3; 4; 19 / 2]]%R None None) false None fac true 1 5 [tc] = (r', Ok tt).
Proof. eapply (discrete_some X2 pr_exact bd nm (rL KDiscrete) (CNums [5; 10]%R) (Single [[3; 4; 19 / 2]]%R None None) false None fac true 1 5 [tc] [[[3; 4; 19 / 2]]%R] None 1 1 1 [3] (rL2 KDiscrete pre2) [E34]);
    [exact pr_exact_steps|reflexivity|reflexivity|repeat split|lia|reflexivity|split; [discriminate|exact I]|repeat constructor|repeat constructor|discriminate|lia|lia|exact rL_fit|exact noP_trained|reflexivity| |exact predicts_ex|reflexivity|].
  - constructor; [|constructor]. exists [1]%R. reflexivity.
  - destruct error5 as [e He]. exists (SpecGrid.PS (F 5)), (m50 5), e. split; [left; reflexivity|]. split; [apply (refit2 KDiscrete 5); lra|]. split; [exact stable5|exact He]. Qed.

(* data that are zero in reduced coordinates: every candidate reproduces them, and the search fails *)
Definition E00 : mat := [[0; 0]]%R.
Definition m0 (g : R) : model := gen KDiscrete [knw (OLin [[0]]%R)] (Some 1) (Some g) (Some pre0).
Lemma zero_fails : exists LX PR b nmd r c T fac' Qs r1 Es r', lsx_ok LX /\ steps_well PR /\ (forall x y, honest [] (b x y)) /\ (forall x, honest [] (nmd x)) /\
  trajectories_of T (map M Qs) None None /\ rom_fit_with (fit_solver LX) r (Several (map M Qs) None None) false None = (r1, Ok (map M Es)) /\
  (forall q, In q (points c) -> exists d, retrained LX fac' (rm_model r1) q d /\ stable_discrete PR (rm_parts r1) [] 5 1 Es [None] 1 d /\
     Forall (fun E => exists Y, continues_discrete PR d 1 E None 1 (map (map F) Y) /\ forall j, j < ncols E -> mget Y 0 j = mget E 0 j) Es) /\
  regselect_discrete LX PR b nmd r c T false None fac' true 1 5 [] = (r', Err RuntimeError).
Proof. exists X2, pr_exact, bd, nm, (rL KDiscrete), (CNums [5; 10]%R), (Single [[0; 0; 0]]%R None None), fac, [[[0; 0; 0]]%R], (rL2 KDiscrete pre0), [E00].
  assert (HN : forall q d, In q (points (CNums [5; 10]%R)) -> retrained X2 fac (rm_model (rL2 KDiscrete pre0)) q d -> predicts_discrete pr_exact noP [] 1 [E00] [None] 1 d).
  { intros q d Hq Hr. destruct (points_ex q Hq) as (g & -> & Hg). rewrite (retrained_fun _ _ _ _ _ _ Hr (refit0 KDiscrete g Hg)). split; [constructor|]. constructor; [|constructor]. eexists. apply run3. }
  assert (HZ : forall d e, ~ mean_error_discrete pr_exact 1 [E00] [None] 1 d e). { intros d e. apply (zero_data pr_exact 1 E00); [left; auto|reflexivity|]. unfold sumsq, E00. cbn. unfold Rsqr. lra. }
  destruct (discrete_none X2 pr_exact bd nm (rL KDiscrete) (CNums [5; 10]%R) (Single [[0; 0; 0]]%R None None) false None fac true 1 5 [] [[[0; 0; 0]]%R] None 1 1 1 [3] (rL2 KDiscrete pre0) [E00]
    pr_exact_steps eq_refl eq_refl (conj eq_refl (conj eq_refl eq_refl)) ltac:(lia) eq_refl ltac:(split; [discriminate|exact I]) ltac:(repeat constructor) ltac:(repeat constructor) ltac:(discriminate) ltac:(lia) ltac:(lia)
    rL_fit0 noP_trained eq_refl (Forall_nil _) HN (fun q d _ _ _ e => HZ d e)) as [r' Er'].
  exists r'. split; [exact X2_ok|]. split; [exact pr_exact_steps|]. split; [cbn; auto|]. split; [cbn; auto|]. split; [repeat split|]. split; [exact rL_fit0|]. split; [|exact Er'].
  intros q Hq. destruct (points_ex q Hq) as (g & -> & Hg). exists (m0 g). split; [apply (refit0 KDiscrete g Hg)|]. assert (HR : pr_exact (m0 g) (V [0]%R) 3%Z None = Ok [[F 0; F 0; F 0]]).
  { unfold m0. rewrite run3. repeat f_equal; lra. } split.
  - split; [constructor|]. constructor; [|constructor]. eexists. split; [exact HR|]. intros [|i] j Hi Hj; [|lia]. change (ncols E00 + Z.to_nat 1) with 3 in Hj. exists 0%R. split; [destruct j as [|[|[|j]]]; [| | |lia]; reflexivity|].
    intros m [_ (i & j' & Hi' & Hj' & <-)] _. change (ncols E00) with 2 in *. replace (row_mean 2 E00 0) with 0%R by (unfold row_mean; cbn; field). replace (0 - 0)%R with 0%R by lra. rewrite Rabs_R0. assert (H := Rabs_pos (mget E00 i j' - row_mean 2 E00 i)). lra.
  - constructor; [|constructor]. exists [[0; 0; 0]]%R. split; [exact HR|]. intros [|[|j]] Hj; [reflexivity|reflexivity|cbn in Hj; lia]. Qed.

(* a time-continuous model whose solution is nan right after the training times is chosen *)
Definition pr_nan : cpredict := fun _ q t _ => match q with V [_] => Ok [map (fun s => if Rle_dec s 1 then F (3 + s) else SpecLift.NaN) t] | _ => Err DimensionalityError end.
Lemma pr_nan_solves : solves_well pr_nan.
Proof. intros d q t u s. unfold pr_nan. destruct q as [|x [|]]; try discriminate. intros [= <-]. split; [reflexivity|]. eexists. repeat constructor. Qed.
Lemma rC_fit : rom_fit_with (fit_solver X2) (rL KContinuous) (Several (map M [E34]) (Some (map M [[[4; 19 / 2]]%R])) None) false None = (rL2 KContinuous pre2, Ok (map M [E34])).
Proof. unfold rom_fit_with. cbn -[fit_solver]. rewrite fit2. reflexivity. Qed.
Lemma times01 : extend_times 2 [0; 1]%R = Ok [0; 1; 2; 4]%R.
Proof. unfold extend_times. destruct (Rlt_dec 0 2); [|lra]. change (length [0; 1]%R) with 2. cbn [Nat.ltb Nat.leb]. rewrite telescope. replace ((last [0; 1] 0 - hd 0 [0; 1]) / INR (2 - 1))%R with 1%R by (cbn; field). destruct (Rle_dec 1 0); [lra|].
  replace (Int_part (2 / 1)) with 2%Z. 2:{ unfold Int_part. assert (2 + 1 = up (2 / 1))%Z; [apply tech_up; rewrite ?plus_IZR; lra|lia]. } cbn. change (Pos.to_nat 2) with 2. cbn. repeat f_equal; lra. Qed.
Definition cj : ctraj := {| cj_data := E34; cj_input := None; cj_times := [0; 1; 2; 4]%R |}.
Lemma sol_nan d : pr_nan d (V (colv 1 (cj_data cj) 0)) (cj_times cj) (cj_input cj) = Ok [[F (3 + 0); F (3 + 1); SpecLift.NaN; SpecLift.NaN]].
Proof. unfold pr_nan. cbn. destruct (Rle_dec 0 1); [|lra]. destruct (Rle_dec 1 1); [|lra]. destruct (Rle_dec 2 1); [lra|]. destruct (Rle_dec 4 1); [lra|]. reflexivity. Qed.
Lemma seen_nan d : not_seen_unstable pr_nan noP [] 5 1 [cj] d.
Proof. split; [constructor|]. constructor; [|constructor]. eexists. split; [split; [apply sol_nan|repeat constructor]|]. left. exists 0, 2. split; [reflexivity|]. split; [cbn; lia|cbn; lia]. Qed.
Lemma trap2 f : trapz 2 (vget [0; 1]%R) f = ((f 0%nat + f 1%nat) / 2)%R.
Proof. unfold trapz. cbn. field. Qed.
Lemma error_nan d : exists e, mean_error_continuous pr_nan 1 [cj] 1 d e.
Proof. eexists. eexists [_]. split; [|reflexivity]. constructor; [|constructor]. eexists. split; [split; [apply sol_nan|repeat constructor]|]. change (ncols (cj_data cj)) with 2. change (firstn 2 (cj_times cj)) with [0; 1]%R.
  exists E34, 0%R, (sqrt (25 / 2))%R. split; [split; repeat constructor|]. split. { intros [|i] j Hi Hj; [|lia]. destruct j as [|[|j]]; [| |lia]; cbn; f_equal; lra. }
  assert (HP := PostNorm.rpow_2).
  split; [|split; [|split; [|reflexivity]]].
  - split; [lra|]. rewrite trap2. rewrite HP by lra. cbn. repeat rewrite HP by apply Rabs_pos. replace (3 - 3)%R with 0%R by lra. replace (4 - 4)%R with 0%R by lra. rewrite Rabs_R0. lra.
  - split; [apply sqrt_pos|]. rewrite trap2. rewrite HP by apply sqrt_pos. rewrite sqrt_sqrt by lra. cbn. rewrite !HP by apply Rabs_pos. rewrite !Rabs_right by lra. lra.
  - intros H. apply sqrt_eq_0 in H; lra. Qed.
Lemma order01 : in_order [0; 1]%R.
Proof. intros [|[|i]] [|[|j]] Hij Hj; cbn in *; try lia; lra. Qed.
Lemma trajs_nan : ctrajs noP None 2 [[0; 1]%R] [E34] [cj].
Proof. split; [reflexivity|]. intros [|i] Q t HQ Ht; [|destruct i; discriminate]. injection HQ as <-. injection Ht as <-. exists cj. split; [reflexivity|]. split; [reflexivity|]. split; [reflexivity|]. exact times01. Qed.
Lemma search_c : exists r', regselect_continuous X2 pr_nan bd nm (rL KContinuous) (CNums [5; 10]%R) [[0; 1]%R] (map M [E34]) (Some (map M [[[4; 19 / 2]]%R])) None false None fac true 2 5 [] = (r', Ok tt).
Proof. destruct (error_nan (gen KContinuous [knw (OLin [[50 / (25 + 5 * 5)]]%R)] (Some 1) (Some 5%R) (Some pre2))) as [e He].
  eapply (continuous_some X2 pr_nan bd nm (rL KContinuous) (CNums [5; 10]%R) [[0; 1]%R] [E34] (Some (map M [[[4; 19 / 2]]%R])) None false None fac true 2 5 [] 1 1 1 [2] None (rL2 KContinuous pre2) _ [cj]);
    [exact pr_nan_solves|reflexivity|reflexivity| |lra|discriminate|repeat constructor|constructor; [exact order01|constructor]|discriminate|split; [discriminate|exact I]|repeat constructor|repeat constructor|lia|lia|reflexivity|exact rC_fit|exact noP_trained|reflexivity|constructor|constructor|exact trajs_nan| |reflexivity|].
  - intros l [= <-]. reflexivity.
  - intros q d _ _. split; [constructor|]. constructor; [|constructor]. eexists. apply sol_nan.
  - exists (SpecGrid.PS (F 5)), (gen KContinuous [knw (OLin [[50 / (25 + 5 * 5)]]%R)] (Some 1) (Some 5%R) (Some pre2)), e. split; [left; reflexivity|]. split; [apply (refit2 KContinuous 5); lra|]. split; [apply seen_nan|exact He]. Qed.
Lemma nan_accepted : exists LX PR b nmd r c t Q Z fac' len r' s, lsx_ok LX /\ solves_well PR /\ (forall x y, honest [] (b x y)) /\ (forall x, honest [] (nmd x)) /\ strictly_ordered t /\ (0 < len)%R /\
  regselect_continuous LX PR b nmd r c [t] [M Q] (Some [M Z]) None false None fac' true len 5 [] = (r', Ok tt) /\
  exists td, extend_times len t = Ok td /\ PR (rm_model r') (V (colv 1 Q 0)) td None = Ok s /\ has_nan s.
Proof. destruct search_c as [r' Er']. exists X2, pr_nan, bd, nm, (rL KContinuous), (CNums [5; 10]%R), [0; 1]%R, E34, [[4; 19 / 2]]%R, fac, 2%R, r'. eexists.
  split; [exact X2_ok|]. split; [exact pr_nan_solves|]. split; [cbn; auto|]. split; [cbn; auto|]. split. { intros [|[|i]] [|[|j]] Hij Hj; cbn in *; try lia; lra. } split; [lra|]. split; [exact Er'|].
  exists [0; 1; 2; 4]%R. split; [exact times01|]. split; [apply (sol_nan (rm_model r'))|]. exists 0, 2. split; [reflexivity|]. split; cbn; lia. Qed.
(* the hypotheses of the best fit are met *)
Lemma blank_reach k : reach X2 (blank k).
Proof. apply (reach_new X2 k false [AStr "A"%string] (SNum 1)); [repeat constructor|exact I|]. unfold mk_model. cbn. destruct (Req_EM_T 1 0); [lra|]. destruct (Rlt_dec 0 1); [|lra]. reflexivity. Qed.

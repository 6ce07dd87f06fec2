(* GalProofs.v -- Galerkin projection commutes with apply *)
From Verif Require Import LinAlg MatAlg SpecOps SpecExt TupleLemmas TupleProofs TupleFinal.
From Verif Require Export OpsProofs JacProofs.
#[local] Open Scope nat_scope.

Lemma dot_vscale_l a u v : dot (vscale a u) v = (a * dot u v)%R.
Proof. revert v. induction u as [|x u IH]; intros [|y v]; cbn; try ring. unfold vscale in IH. rewrite IH. ring. Qed.
Lemma dot_vscale_r a u v : dot u (vscale a v) = (a * dot u v)%R.
Proof. rewrite dot_comm, dot_vscale_l, dot_comm. reflexivity. Qed.
Lemma dot_kronv a b x y : length b = length y -> dot (kronv a b) (kronv x y) = (dot a x * dot b y)%R.
Proof. intros H. unfold kronv. revert x. induction a as [|p a IH]; intros [|z x]; cbn; try ring.
  - destruct (vscale p b ++ _); cbn; ring.
  - rewrite dot_app by (unfold vscale; rewrite !map_length; auto). rewrite IH, dot_vscale_l, dot_vscale_r. ring. Qed.

Lemma kronm_shape ra ca rb cb A B : is_mat ra ca A -> is_mat rb cb B -> is_mat (ra * rb) (ca * cb) (kronm A B).
Proof. intros [<- HA] [HlB HB]. unfold kronm. induction A as [|x A IH]; cbn [map List.concat length].
  - apply is_mat_nil.
  - apply Forall_cons_iff in HA. destruct HA as [Hx HA]. cbn [Nat.mul]. apply is_mat_app; auto.
    apply is_mat_map; auto. intros row Hrow. rewrite kronv_length. rewrite Forall_forall in HB. rewrite Hx, HB; auto. Qed.

Lemma matvec_app A B v : matvec (A ++ B) v = matvec A v ++ matvec B v.
Proof. apply map_app. Qed.

Lemma matvec_kronm rb cb A B x y : is_mat rb cb B -> is_vec cb y ->
  matvec (kronm A B) (kronv x y) = kronv (matvec A x) (matvec B y).
Proof. intros [HlB HB] Hy. unfold kronm. induction A as [|a A IH]; cbn [map List.concat]; auto.
  rewrite matvec_app. rewrite IH.
  change (kronv (matvec (a :: A) x) (matvec B y)) with (vscale (dot a x) (matvec B y) ++ kronv (matvec A x) (matvec B y)).
  f_equal. unfold matvec, vscale. rewrite !map_map. apply map_ext_in. intros row Hrow. rewrite Forall_forall in HB. apply dot_kronv. rewrite HB; auto. Qed.

Definition kronm_pow (d : degree) (A : mat) : mat := match d with
  | Quadratic => kronm A A | Cubic => kronm A (kronm A A) | Quartic => kronm A (kronm A (kronm A A)) end.
Lemma kronm_pow_shape d n r A : is_mat n r A -> is_mat (n ^ deg d) (r ^ deg d) (kronm_pow d A).
Proof. intros H. destruct d; cbn [deg Nat.pow kronm_pow]; rewrite ?Nat.mul_1_r; repeat apply kronm_shape; auto. Qed.
Lemma kp_1 q : kron_power 1 q = q.
Proof. rewrite kron_power_S. cbn. unfold kronv. induction q; auto. cbn in *. rewrite IHq. f_equal. ring. Qed.
Lemma matvec_kronm_pow d n r A q : is_mat n r A -> is_vec r q ->
  matvec (kronm_pow d A) (kron_power (deg d) q) = kron_power (deg d) (matvec A q).
Proof. intros HA Hq.
  assert (S1 : forall p M, is_mat (n ^ p) (r ^ p) M -> matvec M (kron_power p q) = kron_power p (matvec A q) ->
     is_mat (n ^ S p) (r ^ S p) (kronm A M) /\ matvec (kronm A M) (kron_power (S p) q) = kron_power (S p) (matvec A q)).
  { intros p M HM E. split; [apply kronm_shape; auto|]. rewrite !kron_power_S.
    rewrite (matvec_kronm (n ^ p) (r ^ p)), E; auto. unfold is_vec. rewrite kron_power_length, Hq. auto. }
  assert (B : is_mat (n ^ 1) (r ^ 1) A /\ matvec A (kron_power 1 q) = kron_power 1 (matvec A q)).
  { split; [simpl; rewrite !Nat.mul_1_r; auto|]. rewrite !kp_1. reflexivity. }
  destruct B as [B1 B2]. destruct (S1 _ _ B1 B2) as [C1 C2]. destruct (S1 _ _ C1 C2) as [D1 D2].
  destruct (S1 _ _ D1 D2) as [E1 E2]. destruct d; auto. Qed.

Lemma kronm_eye_apply m n r A u q : is_mat n r A -> is_vec r q -> is_vec m u ->
  matvec (kronm (eye m) A) (kronv u q) = kronv u (matvec A q).
Proof. intros HA Hq Hu. rewrite (matvec_kronm n r) by auto. rewrite matvec_eye by auto. reflexivity. Qed.

(* width and data vector of an operator before compression *)
Definition fwidth (o : op) (r m : nat) : nat :=
  match o with OConst _ => 1 | OLin _ => r | OPoly d _ => r ^ deg d | OInp _ => m | OStIn _ => r * m end.
Definition fvec (o : op) (q u : vec) : vec :=
  match o with OPoly d _ => kron_power (deg d) q | _ => datavec o q u end.

Lemma is_vec_fvec r m o q u : is_vec r q -> is_vec m u -> is_vec (fwidth o r m) (fvec o q u).
Proof. intros Hq Hu. destruct o; cbn; auto; [reflexivity| |apply is_vec_kronv; auto].
  unfold is_vec. rewrite kron_power_length, Hq. auto. Qed.
Lemma fwidth_pos o r m : 0 < r -> 0 < m -> 0 < fwidth o r m.
Proof. intros. destruct o; cbn [fwidth]; try lia; try nia. assert (r ^ deg d <> 0) by (apply Nat.pow_nonzero; lia). lia. Qed.

Lemma galerkin_func_ok junk n r m o Vr F : (forall k, length (junk k) = k) -> 0 < n -> 0 < r -> 0 < m ->
  wf_op n m o -> is_mat n r Vr -> galerkin_func junk o Vr = Ok F ->
  is_mat n (fwidth o r m) F /\
  forall q u, is_vec r q -> is_vec m u -> matvec F (fvec o q u) = matvec (entries2 o) (datavec o (matvec Vr q) u).
Proof. intros Hj Hn Hr Hm Hwf HV HF. destruct o as [c|A|d H|B|N]; cbn [galerkin_func wf_op fwidth fvec datavec entries2] in *.
  - injection HF as <-. split; auto. apply (entries2_shape n m (OConst c)); auto.
  - rewrite (matmul_r_ok n n r) in HF by auto. injection HF as <-. split; [mt|]. intros q u Hq Hu.
    apply (matvec_matmul n n r); auto.
  - destruct (expand d junk H) as [G|e] eqn:EG; [|discriminate].
    destruct (expand_right_inverse' d junk n n H Hj Hn Hwf G EG) as [HG [HE _]].
    change (matmul_r G (kronm_pow d Vr) = Ok F) in HF.
    assert (HK := kronm_pow_shape d n r Vr HV).
    assert (Hp : 0 < n ^ deg d) by (assert (n ^ deg d <> 0) by (apply Nat.pow_nonzero; lia); lia).
    rewrite (matmul_r_ok n (n ^ deg d) (r ^ deg d)) in HF by auto. injection HF as <-. split; [mt|]. intros q u Hq Hu.
    rewrite (matvec_matmul n (n ^ deg d) (r ^ deg d)); auto.
    2:{ unfold is_vec. rewrite kron_power_length, Hq. auto. }
    rewrite (matvec_kronm_pow d n r) by auto. apply HE. mt.
  - injection HF as <-. auto.
  - rewrite (is_mat_nrows _ _ _ Hwf), (ncols_is_mat n (n * m)) in HF by auto.
    rewrite (Nat.mul_comm n m), Nat.div_mul in HF by lia.
    assert (HK : is_mat (n * m) (r * m) (kronm (eye m) Vr)).
    { rewrite (Nat.mul_comm n m), (Nat.mul_comm r m). apply kronm_shape; auto. mt. }
    rewrite (matmul_r_ok n (n * m) (r * m)) in HF by auto. injection HF as <-.
    assert (0 < n * m) by nia. split; [mt|]. intros q u Hq Hu.
    rewrite (matvec_matmul n (n * m) (r * m)); auto; [|apply is_vec_kronv; auto].
    rewrite (kronm_eye_apply m n r) by auto. reflexivity. Qed.

Lemma galerkin_func_total junk n r m o Vr : (forall k, length (junk k) = k) -> 0 < n -> 0 < m -> wf_op n m o -> is_mat n r Vr ->
  (forall d H, o = OPoly d H -> newton_guard d n) -> exists F, galerkin_func junk o Vr = Ok F.
Proof. intros Hj Hn Hm Hwf HV Hg. destruct o as [c|A|d H|B|N]; cbn [galerkin_func wf_op] in *; eauto.
  - rewrite (matmul_r_ok n n r) by auto. eauto.
  - destruct (expand_right_inverse d junk n n H Hj Hn Hwf (Hg d H eq_refl)) as [G [EG [HG _]]]. rewrite EG.
    change (exists F, matmul_r G (kronm_pow d Vr) = Ok F).
    rewrite (matmul_r_ok n (n ^ deg d) (r ^ deg d)); eauto. apply kronm_pow_shape; auto.
  - rewrite (is_mat_nrows _ _ _ Hwf), (ncols_is_mat n (n * m)) by auto.
    rewrite (Nat.mul_comm n m), Nat.div_mul by lia.
    assert (HK : is_mat (n * m) (r * m) (kronm (eye m) Vr)).
    { rewrite (Nat.mul_comm n m), (Nat.mul_comm r m). apply kronm_shape; auto. mt. }
    rewrite (matmul_r_ok n (n * m) (r * m)) by auto. eauto. Qed.

Lemma rebuild_ok r m o E : 0 < r -> 0 < m -> is_mat r (fwidth o r m) E -> exists g, rebuild o E = Ok g /\ wf_op r m g /\
  forall q u, is_vec r q -> is_vec m u -> apply g (V q) (V u) = Ok (V (matvec E (fvec o q u))).
Proof. intros Hr Hm HE. destruct o as [c|A|d H|B|N]; cbn [rebuild fwidth fvec datavec] in *.
  - eexists. split; [reflexivity|].
    assert (HW : wf_op r m (OConst (map (fun row => nth 0 row 0%R) E))).
    { cbn. unfold is_vec. rewrite map_length. destruct HE; auto. }
    split; auto. intros q u Hq Hu. rewrite (apply_vec r m) by auto. do 2 f_equal.
    apply (vec_ext r); try (eapply is_vec_matvec; eauto; apply (entries2_shape r m); exact HW).
    intros i Hi. rewrite !(vget_matvec r 1) by (auto; first [reflexivity | apply (entries2_shape r m); exact HW]).
    cbn. unfold mget. cbn [entries2]. rewrite map_map. rewrite (nth_map_in _ _ _ _ []) by (destruct HE; lia). reflexivity.
  - rewrite (is_mat_nrows _ _ _ HE), (ncols_is_mat r r), Nat.eqb_refl by auto. eexists. split; [reflexivity|].
    split; auto. intros q u Hq Hu. rewrite (apply_vec r m) by auto. reflexivity.
  - rewrite (is_mat_nrows _ _ _ HE), (ncols_is_mat r (r ^ deg d)), Nat.eqb_refl by auto.
    destruct (compress_preserves d r r E Hr HE) as [Hc [Ec [HM HV]]]. rewrite Ec. eexists. split; [reflexivity|].
    split; auto. intros q u Hq Hu. rewrite (apply_vec r m) by auto. cbn [entries2 datavec]. rewrite HV by auto. reflexivity.
  - eexists. split; [reflexivity|]. split; auto. intros q u Hq Hu. rewrite (apply_vec r m) by auto. reflexivity.
  - rewrite (is_mat_nrows _ _ _ HE), (ncols_is_mat r (r * m)) by auto.
    replace (r * m / r) with m by (rewrite Nat.mul_comm, Nat.div_mul; lia). rewrite Nat.eqb_refl.
    eexists. split; [reflexivity|]. split; auto. intros q u Hq Hu. rewrite (apply_vec r m) by auto. reflexivity. Qed.

Lemma allclose_refl A : allclose A A = true.
Proof. unfold allclose. apply forallb_forall. intros i _. apply forallb_forall. intros j _. unfold rleb.
  destruct (Rle_dec _ _) as [|n]; auto. exfalso. apply n. replace (mget A i j - mget A i j)%R with 0%R by ring. rewrite Rabs_R0.
  assert (0 <= Rabs (mget A i j))%R by apply Rabs_pos.
  assert (0 < / 10 ^ 8)%R by (apply Rinv_0_lt_compat; lra). assert (0 < / 10 ^ 5)%R by (apply Rinv_0_lt_compat; lra). nra. Qed.

Section Gal.
  Variables (solve : mat -> mat -> res mat) (junk : nat -> vec) (n r m : nat) (o : op) (Vr : mat) (Wr : option mat).
  Hypothesis Hsolve : solve_spec solve.
  Hypothesis Hj : forall k, length (junk k) = k.
  Hypotheses (Hn : 0 < n) (Hr : 0 < r) (Hm : 0 < m) (Hwf : wf_op n m o) (HV : is_mat n r Vr).
  Definition testbasis : mat := match Wr with None => Vr | Some W => W end.
  Hypothesis HW : is_mat n r testbasis.
  Hypothesis Hclose : matmul (mT testbasis) Vr = eye r \/ allclose (matmul (mT testbasis) Vr) (eye r) = false.

  Lemma op_rows_wf : op_rows o = n.
  Proof. destruct o; cbn in *; auto; apply (is_mat_nrows _ _ _ Hwf). Qed.

  Lemma galerkin_commutes g : galerkin solve junk o Vr Wr = Ok g ->
    wf_op r m g /\ forall q u, is_vec r q -> is_vec m u -> exists y z,
      apply o (V (matvec Vr q)) (V u) = Ok (V y) /\ apply g (V q) (V u) = Ok (V z) /\ is_vec r z /\
      matvec (matmul (mT testbasis) Vr) z = matvec (mT testbasis) y.
  Proof. unfold galerkin. fold testbasis. unfold bind.
    rewrite (is_mat_nrows _ _ _ HW), (ncols_is_mat n r _ HW Hn), (ncols_is_mat n r _ HV Hn), op_rows_wf, !Nat.eqb_refl.
    cbn [negb]. destruct (galerkin_func junk o Vr) as [F|] eqn:EF; [|discriminate].
    destruct (galerkin_func_ok junk n r m o Vr F Hj Hn Hr Hm Hwf HV EF) as [HF HFV].
    assert (HWT : is_mat r n (mT testbasis)) by mt.
    rewrite (matmul_r_ok r n (fwidth o r m)), (matmul_r_ok r n r) by auto.
    pose proof (fwidth_pos o r m Hr Hm) as Hp.
    assert (HE : is_mat r (fwidth o r m) (matmul (mT testbasis) F)) by mt.
    assert (HG : is_mat r r (matmul (mT testbasis) Vr)) by mt.
    set (WV := matmul (mT testbasis) Vr) in *.
    set (E := matmul (mT testbasis) F) in *.
    destruct (if allclose WV (eye r) then Ok E else solve WV E) as [E'|] eqn:EE; [|discriminate].
    assert (HE' : is_mat r (fwidth o r m) E' /\ matmul WV E' = E).
    { destruct Hclose as [K|K]; rewrite K in EE.
      - rewrite allclose_refl in EE. rewrite K. injection EE as <-. split; auto. apply (matmul_eye_l r (fwidth o r m)); auto.
      - apply (Hsolve r (fwidth o r m)) in EE; auto. }
    destruct HE' as [HE1 HE2]. destruct (rebuild_ok r m o E' Hr Hm HE1) as [g' [Eg [Hg HA]]]. rewrite Eg.
    intros K. injection K as <-. split; auto. intros q u Hq Hu.
    exists (matvec (entries2 o) (datavec o (matvec Vr q) u)), (matvec E' (fvec o q u)).
    assert (Hf := is_vec_fvec r m o q u Hq Hu).
    split; [apply (apply_vec n m); auto; mt|]. split; [apply HA; auto|]. split; [mt|].
    rewrite <- (matvec_matmul r r (fwidth o r m)) by auto. rewrite HE2. unfold E.
    rewrite (matvec_matmul r n (fwidth o r m)) by auto. f_equal. apply HFV; auto. Qed.

  Lemma galerkin_inverse g P : is_mat r r P -> matmul P (matmul (mT testbasis) Vr) = eye r ->
    galerkin solve junk o Vr Wr = Ok g ->
    forall q u, is_vec r q -> is_vec m u -> exists y,
      apply o (V (matvec Vr q)) (V u) = Ok (V y) /\
      apply g (V q) (V u) = Ok (V (matvec P (matvec (mT testbasis) y))).
  Proof. intros HP HPI Eg q u Hq Hu. destruct (galerkin_commutes g Eg) as [Hg K].
    destruct (K q u Hq Hu) as [y [z [E1 [E2 [Hz E3]]]]]. exists y. split; auto. rewrite E2. do 2 f_equal.
    rewrite <- E3. rewrite <- (matvec_matmul r r r) by (auto; mt). rewrite HPI. symmetry. apply matvec_eye. auto. Qed.

  Lemma galerkin_total : (matmul (mT testbasis) Vr = eye r \/
      solve_total solve /\ exists P, is_mat r r P /\ matmul P (matmul (mT testbasis) Vr) = eye r) ->
    (forall d H, o = OPoly d H -> newton_guard d n) -> exists g, galerkin solve junk o Vr Wr = Ok g.
  Proof. intros Hinv Hg. unfold galerkin. fold testbasis. unfold bind.
    rewrite (is_mat_nrows _ _ _ HW), (ncols_is_mat n r _ HW Hn), (ncols_is_mat n r _ HV Hn), op_rows_wf, !Nat.eqb_refl.
    cbn [negb]. destruct (galerkin_func_total junk n r m o Vr Hj Hn Hm Hwf HV Hg) as [F EF]. rewrite EF.
    destruct (galerkin_func_ok junk n r m o Vr F Hj Hn Hr Hm Hwf HV EF) as [HF HFV].
    assert (HWT : is_mat r n (mT testbasis)) by mt.
    rewrite (matmul_r_ok r n (fwidth o r m)), (matmul_r_ok r n r) by auto.
    pose proof (fwidth_pos o r m Hr Hm) as Hp.
    assert (HE : is_mat r (fwidth o r m) (matmul (mT testbasis) F)) by mt.
    assert (HG : is_mat r r (matmul (mT testbasis) Vr)) by mt.
    set (WV := matmul (mT testbasis) Vr) in *. set (E := matmul (mT testbasis) F) in *.
    assert (exists E', (if allclose WV (eye r) then Ok E else solve WV E) = Ok E' /\ is_mat r (fwidth o r m) E') as [E' [-> HE']].
    { destruct (allclose WV (eye r)) eqn:EA; [eauto|]. destruct Hinv as [K|[HT [P [HP HPI]]]].
      - rewrite K, allclose_refl in EA. discriminate.
      - destruct (HT r (fwidth o r m) WV E P) as [X EX]; auto. exists X. split; auto.
        apply (Hsolve r (fwidth o r m)) in EX; tauto. }
    destruct (rebuild_ok r m o E' Hr Hm HE') as [g [Eg _]]. eauto. Qed.
End Gal.

(* misaligned bases are rejected *)
Lemma galerkin_rejects solve junk n m o Vr Wr : 0 < n -> wf_op n m o ->
  (nrows (testbasis Vr Wr) <> n \/ ncols Vr <> ncols (testbasis Vr Wr)) ->
  galerkin solve junk o Vr Wr = Err DimensionalityError.
Proof. intros Hn Hwf H. unfold galerkin. fold (testbasis Vr Wr). rewrite (op_rows_wf n m o Hwf).
  destruct (Nat.eqb_spec n (nrows (testbasis Vr Wr))) as [E|E]; auto. cbn [negb].
  destruct (Nat.eqb_spec (ncols Vr) (ncols (testbasis Vr Wr))) as [E'|E']; auto. exfalso.
  destruct H as [H|H]; congruence. Qed.

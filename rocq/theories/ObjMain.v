(* ObjMain.v -- models made of any operator objects: galerkin, predict, copy, and what fails. *)
From Coq Require Import ZArith String.
From Verif Require Import LinAlg MatAlg BlockAlg SolverResid JacProofs MonoEq MonoPredict.
From Verif Require Export ObjProofs.
From Verif Require Import SpecAnyObj.
#[local] Open Scope nat_scope.
#[local] Open Scope list_scope.

Theorem omk_behaves W k r m l fs : l <> [] -> Forall2 (behaves W r m) l fs -> exists d, omk W k l = Ok d /\ model_of W r m d fs /\ om_kind d = k /\ om_ops d = l /\ om_r d = Some r /\
  om_hasin d = existsb (takes_in W) l /\ om_m d = Some (if om_hasin d then m else 0) /\ otrained W d = Ok tt.
Proof. intros Hne HF. assert (HB := F2_in _ _ _ HF). assert (HE : filter (uncal W) l = []).
  { clear Hne. assert (K : forall o, In o l -> uncal W o = false) by (intros o Ho; destruct (HB o Ho) as (f & Hf); apply Hf). clear HF HB. induction l as [|o l IH]; auto. cbn. rewrite K by (left; auto). apply IH. intros; apply K; right; auto. }
  destruct (proj2 (omk_accepts W k l)) as (d & E).
  { split; auto. split; [rewrite HE; constructor|]. intros a b Ha Hb _ _. destruct (HB a Ha) as (f & Hf), (HB b Hb) as (g & Hg). rewrite (bh_dim _ _ _ _ _ Hf), (bh_dim _ _ _ _ _ Hg). split; auto.
    intros x y Hx Hy. rewrite (bh_in _ _ _ _ _ Hf x Hx), (bh_in _ _ _ _ _ Hg y Hy). auto. }
  exists d. assert (HM : model_of W r m d fs) by (exists k, l; auto). destruct (omk_state W k l d E) as (H1 & H2 & H3 & _). destruct (mo_dims _ _ _ _ _ HM) as (H4 & H5 & H6). repeat (split; auto). Qed.

(* ---- galerkin ---- *)
Lemma total_proj n r m Vr Wr : forall fs fs', Forall2 (projection n r m Vr Wr) fs fs' -> projection n r m Vr Wr (total fs) (total fs').
Proof. intros fs fs' HF q u i Hq Hu Hi. induction HF as [|f f' fs fs' H HF IH].
  - unfold total. cbn [map]. change (lsum []) with 0%R. rewrite !bsum_0; auto; intros; ring.
  - assert (E : forall (f : fn) fs q u i, total (f :: fs) q u i = (f q u i + total fs q u i)%R) by (intros; unfold total; cbn [map]; apply lsum_cons).
    rewrite (bsum_ext r _ (fun k => (bsum n (fun l => mget Wr l i * mget Vr l k) * f' q u k + bsum n (fun l => mget Wr l i * mget Vr l k) * total fs' q u k)%R)) by (intros; rewrite E; ring).
    rewrite (bsum_ext n (fun l => (mget Wr l i * total (f :: fs) (matvec Vr q) u l)%R) (fun l => (mget Wr l i * f (matvec Vr q) u l + mget Wr l i * total fs (matvec Vr q) u l)%R)) by (intros; rewrite E; ring).
    rewrite !bsum_plus, IH. rewrite (H q u i Hq Hu Hi). auto. Qed.
Theorem ogalerkin_projects W n r m d fs Vr Wr : model_of W n m d fs -> Forall2 (projects W n r m Vr Wr) (om_ops d) fs ->
  exists d' fs', ogalerkin W d Vr Wr = Ok d' /\ om_kind d' = om_kind d /\ model_of W r m d' fs' /\ om_hasin d' = om_hasin d /\
    projection n r m Vr (match Wr with Some A => A | None => Vr end) (total fs) (total fs').
Proof. intros HM HP. unfold ogalerkin. assert (HF := mo_F2 _ _ _ _ _ HM).
  assert (K : exists l' fs', mapM (fun o => if uncal W o then w_copy W o else w_galerkin W o Vr Wr) (om_ops d) = Ok l' /\ Forall2 (behaves W r m) l' fs' /\ Forall2 (projection n r m Vr (match Wr with Some A => A | None => Vr end)) fs fs' /\
     existsb (takes_in W) l' = existsb (takes_in W) (om_ops d) /\ length l' = length (om_ops d)).
  { clear HM. induction HF as [|o f l fs HB HF IH]. { exists [], []. repeat (split; auto). }
    inversion HP as [|? ? ? ? (o' & f' & E1 & E2 & E3 & E4) HP']; subst. destruct (IH HP') as (l' & fs' & M1 & M2 & M3 & M4 & M5). exists (o' :: l'), (f' :: fs').
    cbn [mapM]. rewrite (bh_cal _ _ _ _ _ HB), E1. cbn [bind]. rewrite M1. cbn [bind]. repeat (split; auto). { cbn. rewrite E2, M4. auto. } cbn. lia. }
  destruct K as (l' & fs' & -> & M2 & M3 & M4 & M5). cbn [bind]. assert (Hne := mo_ne _ _ _ _ _ HM).
  destruct (omk_behaves W (om_kind d) r m l' fs') as (d' & E & HM' & H1 & H2 & H3 & H4 & _); auto. { destruct l', (om_ops d); cbn in M5; congruence. }
  exists d', fs'. repeat (split; auto). { rewrite H4, M4. symmetry. apply (mo_hasin _ _ _ _ _ HM). } apply total_proj. auto. Qed.

(* ---- predict ---- *)
Section Predict.
  Variables (W : world) (r m : nat) (d : omodel W) (fs : list fn).
  Hypotheses (Hm : 0 < m) (HM : model_of W r m d fs).
  Definition ostepf (inputs : option inputarg) (q : vec) (j : nat) : res vec := orhs_vec W d q (ostep d inputs j).
  Lemma ostep_ok inputs n q j : oenough d m inputs n -> is_vec r q -> exists q', ostepf inputs q j = Ok q' /\ is_vec r q' /\ orhs W d (V q) (ostep d inputs j) = Ok (V q').
  Proof. intros HE Hq. assert (HU : exists u, model_input d m u V (ostep d inputs j)).
    { unfold ostep, model_input. destruct (om_hasin d) eqn:Eh.
      - destruct (HE Eh) as (u & k & E1 & E3 & E4). subst inputs. rewrite (is_mat_nrows _ _ _ E3). eexists. split; [|intros _; reflexivity]. apply is_vec_colv.
      - exists (repeat 0%R m). split; [apply repeat_length|discriminate]. }
    destruct HU as (u & HU). destruct (orhs_total W r m d fs q u _ HM Hq HU) as (y & E & Hy & _). exists y. unfold ostepf, orhs_vec. rewrite E. auto. Qed.
  Lemma opredict_unfold q0 n inputs : is_vec r q0 -> oenough d m inputs n -> 1 <= n ->
    opredict W d (V q0) (Z.of_nat n) inputs = (do cols <- iterate (ostepf inputs) (n - 1) 0 q0; Ok (of_columns r (q0 :: cols))).
  Proof. intros Hq HE Hn. destruct (mo_dims _ _ _ _ _ HM) as (Er & Em & ET). unfold opredict. rewrite ET. cbn [bind]. rewrite Er. rewrite Hq, Nat.eqb_refl. cbn [negb].
    destruct (Z.ltb_spec (Z.of_nat n) 1); [lia|]. rewrite Nat2Z.id. unfold ostepf, ostep. destruct (om_hasin d) eqn:Eh.
    - destruct (HE Eh) as (u & k & E1 & E3 & E4). subst inputs. cbn [andb]. rewrite Em. cbn [is_dim]. rewrite (is_mat_nrows _ _ _ E3), Nat.eqb_refl. cbn [negb orb].
      rewrite (ncols_is_mat _ _ _ E3 Hm). destruct (Nat.ltb_spec k (n - 1)); [lia|]. reflexivity.
    - cbn [andb]. reflexivity. Qed.
  Lemma opredict_rec q0 n inputs : is_vec r q0 -> oenough d m inputs n -> 1 <= n -> exists Q, opredict W d (V q0) (Z.of_nat n) inputs = Ok Q /\ is_mat r n Q /\
    colv r Q 0 = q0 /\ forall j, j + 1 < n -> orhs W d (V (colv r Q j)) (ostep d inputs j) = Ok (V (colv r Q (j + 1))).
  Proof. intros Hq HE Hn. rewrite opredict_unfold by auto.
    destruct (iterate_ok (ostepf inputs) (n - 1) 0 q0 (is_vec r) Hq) as (l & El & Hl).
    { intros q i Hqi Hi. destruct (ostep_ok inputs n q i HE Hqi) as (q' & E & Hq' & _). eauto. }
    rewrite El. cbn [bind]. destruct (iterate_inv _ _ _ _ _ El) as [HL HV]. exists (of_columns r (q0 :: l)).
    assert (HF : Forall (is_vec r) (q0 :: l)) by (constructor; auto).
    split; auto. split. { replace n with (length (q0 :: l)) by (cbn; lia). apply is_mat_of_columns. }
    split. { rewrite colv_of_columns by (auto; cbn; lia). reflexivity. }
    intros j Hj. rewrite !colv_of_columns by (auto; cbn; lia). specialize (HV j ltac:(lia)). cbn [Nat.add] in HV.
    assert (Hqj : is_vec r (nth j (q0 :: l) [])). { rewrite Forall_forall in HF. apply HF, nth_In. cbn; lia. }
    destruct (ostep_ok inputs n _ j HE Hqj) as (q' & E & Hq' & ER). rewrite E in HV. injection HV as ->. rewrite ER. do 2 f_equal.
    replace (j + 1) with (S j) by lia. reflexivity. Qed.
  Lemma opredict_pre q0 n n' inputs Q : is_vec r q0 -> oenough d m inputs n -> 1 <= n' -> n' <= n ->
    opredict W d (V q0) (Z.of_nat n) inputs = Ok Q -> opredict W d (V q0) (Z.of_nat n') inputs = Ok (mcols 0 n' Q).
  Proof. intros Hq HE Hn' Hn E. assert (HE' : oenough d m inputs n'). { intros Hh. destruct (HE Hh) as (u & k & E1 & E3 & E4). exists u, k. repeat (split; auto). lia. }
    rewrite opredict_unfold in E by (auto; lia). rewrite opredict_unfold by auto.
    destruct (iterate (ostepf inputs) (n - 1) 0 q0) as [l|] eqn:El; [|discriminate]. cbn in E. injection E as <-.
    replace (n - 1) with ((n' - 1) + (n - n')) in El by lia. destruct (iterate_app _ _ _ _ _ _ El) as [E1 _]. rewrite E1. cbn [bind].
    rewrite mcols_of_columns. unfold slice. cbn [skipn]. replace (n' - 0) with (S (n' - 1)) by lia. reflexivity. Qed.
End Predict.
Theorem opredict_recurrence W r m d fs q0 n inputs : 0 < m -> model_of W r m d fs -> is_vec r q0 -> oenough d m inputs n -> 1 <= n ->
  exists Q, opredict W d (V q0) (Z.of_nat n) inputs = Ok Q /\ is_mat r n Q /\ colv r Q 0 = q0 /\
    forall j, j + 1 < n -> orhs W d (V (colv r Q j)) (ostep d inputs j) = Ok (V (colv r Q (j + 1))).
Proof. intros Hm HM. apply (opredict_rec W r m d fs Hm HM). Qed.
Theorem opredict_prefix W r m d fs q0 n n' inputs Q : 0 < m -> model_of W r m d fs -> is_vec r q0 -> oenough d m inputs n -> 1 <= n' -> n' <= n ->
  opredict W d (V q0) (Z.of_nat n) inputs = Ok Q -> opredict W d (V q0) (Z.of_nat n') inputs = Ok (mcols 0 n' Q).
Proof. intros Hm HM. apply (opredict_pre W r m d fs Hm HM). Qed.
(* rejections *)
Theorem opredict_rejects W r m d fs q0 n inputs : 0 < m -> model_of W r m d fs ->
  (match q0 with V q => length q <> r | M _ => True end -> opredict W d q0 n inputs = Err DimensionalityError) /\
  (forall q, q0 = V q -> is_vec r q ->
     (n < 1)%Z \/ (om_hasin d = true /\ (inputs = None \/ exists u, inputs = Some (UArr u) /\ (nrows (atleast_2d u) <> m \/ (Z.of_nat (ncols (atleast_2d u)) < n - 1)%Z))) ->
     opredict W d q0 n inputs = Err ValueError).
Proof. intros Hm HM. destruct (mo_dims _ _ _ _ _ HM) as (Er & Em & ET). unfold opredict. rewrite ET, Er. cbn [bind]. split.
  - destruct q0 as [q|]; auto. intros H. destruct (Nat.eqb_spec (length q) r); [congruence|]. auto.
  - intros q -> Hq H. unfold is_vec in Hq. rewrite Hq, Nat.eqb_refl. cbn [negb]. destruct (om_hasin d) eqn:Eh; cbn [andb].
    + destruct inputs as [i|]; auto. destruct (Z.ltb_spec n 1); auto. destruct H as [H|(_ & [H|(u & H & HS)])]; [lia|discriminate|]. injection H as ->.
      cbn [bind]. rewrite Em. cbn [is_dim]. destruct (Nat.eqb_spec m (nrows (atleast_2d u))); cbn [negb orb bind]; auto. destruct (Nat.ltb_spec (ncols (atleast_2d u)) (Z.to_nat n - 1)); cbn [bind]; auto. exfalso. destruct HS as [HS|HS]; [congruence|lia].
    + destruct H as [H|(K & _)]; [|discriminate]. destruct (Z.ltb_spec n 1); [auto|lia]. Qed.
(* exceptions of operators *)
Theorem orhs_raises W d pre o post q ou e : om_ops d = pre ++ o :: post -> (forall p, In p pre -> exists y, w_apply W p (V q) ou = Ok (V y) /\ length y = length q) ->
  w_apply W o (V q) ou = Err e -> orhs W d (V q) ou = Err e.
Proof. intros E HP HO. unfold orhs. rewrite E. cbn [emap]. assert (K : length (map (fun _ : R => 0%R) q) = length q) by apply map_length. clear E. revert K. generalize (map (fun _ : R => 0%R) q).
  induction pre as [|p pre IH]; intros acc Ha; cbn [app osum]; [rewrite HO; auto|]. destruct (HP p) as (y & Ey & Hy); [left; auto|]. rewrite Ey. cbn [bind iadd]. rewrite Hy, Ha, Nat.eqb_refl. cbn [bind].
  apply IH; [intros; apply HP; right; auto|]. apply (is_vec_vadd (length q)); auto. Qed.
Theorem ocont_rhs_input W d t q f : ocont_rhs W d t q f = if om_hasin d then match f with Some g => orhs W d q (Some (g t)) | None => Err TypeError end else orhs W d q None.
Proof. unfold ocont_rhs, ocont_input. destruct (om_hasin d); auto. destruct f; auto. Qed.
Theorem ocont_jac_input W d t q f : ocont_jacobian W d t q f = if om_hasin d then match f with Some g => ojacobian W d q (Some (g t)) | None => Err TypeError end else ojacobian W d q None.
Proof. unfold ocont_jacobian, ocont_input. destruct (om_hasin d); auto. destruct f; auto. Qed.

(* ---- copy ---- *)
Lemma greedy_copies {A} (R : A -> A -> bool) l l' : Forall2 (fun x y => R x y = true) l l' -> greedy R l l' = true.
Proof. intros HF. induction HF as [|x y l l' H HF IH]; auto. cbn. rewrite H. auto. Qed.
Theorem ocopy_equal W k l d : omk W k l = Ok d -> (forall o, In o l -> faithful_copy W o) ->
  exists d', ocopy W d = Ok d' /\ omodel_eqb W d' d = true /\ om_infer d' = om_infer d /\ om_known d' = om_known d /\ om_hasin d' = om_hasin d.
Proof. intros E HC. destruct (omk_state W k l d E) as (E1 & E2 & _). unfold ocopy. rewrite E1, E2.
  assert (K : exists l', mapM (w_copy W) l = Ok l' /\ Forall2 (fun c o => w_eq W c o = true) l' l /\ map (uncal W) l' = map (uncal W) l /\ map (w_type W) l' = map (w_type W) l /\ map (w_dim W) l' = map (w_dim W) l /\ map (w_in W) l' = map (w_in W) l).
  { clear E E1 E2. induction l as [|o l IH]; [exists []; repeat (split; auto)|]. destruct (HC o) as (c & C1 & C2 & C3 & C4 & C5 & C6); [left; auto|]. destruct IH as (l' & L1 & L2 & L3 & L4 & L5 & L6); [intros; apply HC; right; auto|].
    exists (c :: l'). cbn [mapM]. rewrite C1. cbn [bind]. rewrite L1. cbn [bind map]. rewrite C3, C4, C5, C6, L3, L4, L5, L6. repeat (split; auto). }
  destruct K as (l' & -> & L2 & L3 & L4 & L5 & L6). cbn [bind].
  assert (HL : length l' = length l) by (rewrite <- (map_length (uncal W)), L3; apply map_length).
  assert (HP : forall (p : bool -> bool), positions (fun o => p (uncal W o)) l' = positions (fun o => p (uncal W o)) l).
  { intros p. unfold positions. rewrite HL. generalize 0. clear - L3. generalize (length l). revert l L3. induction l' as [|a l' IH]; intros [|b l] L3 n i; try discriminate; [destruct n; auto|]. destruct n as [|n]; auto. cbn in L3. injection L3 as H1 H2.
    cbn [seq combine filter map snd]. rewrite H1. destruct (p (uncal W b)); cbn [map]; rewrite (IH l H2 n (S i)); auto. }
  assert (HT : map (w_type W) (filter (uncal W) l') = map (w_type W) (filter (uncal W) l)).
  { clear - L3 L4. revert l L3 L4. induction l' as [|a l' IH]; intros [|b l] L3 L4; try discriminate; auto. cbn in *. injection L3 as H1 H2. injection L4 as H3 H4. rewrite H1. destruct (uncal W b); cbn; rewrite ?H3, (IH l); auto. }
  assert (HD : obj_dim W l' = obj_dim W l).
  { unfold obj_dim. f_equal. clear - L3 L5. revert l L3 L5. induction l' as [|a l' IH]; intros [|b l] L3 L5; try discriminate; auto. cbn in *. injection L3 as H1 H2. injection L5 as H3 H4. rewrite H1. destruct (uncal W b); cbn; rewrite ?H3, (IH l); auto. }
  assert (HI : existsb (takes_in W) l' = existsb (takes_in W) l).
  { clear - L6. revert l L6. induction l' as [|a l' IH]; intros [|b l] L6; try discriminate; auto. cbn in *. injection L6 as H1 H2. unfold takes_in at 1 3. rewrite H1, (IH l); auto. }
  assert (HO : obj_in W l' = obj_in W l).
  { unfold obj_in. rewrite HI. destruct (existsb (takes_in W) l); auto. f_equal. clear - L3 L6. revert l L3 L6. induction l' as [|a l' IH]; intros [|b l] L3 L6; try discriminate; auto. cbn in *. injection L3 as H1 H2. injection L6 as H3 H4.
    rewrite H1. destruct (uncal W b); cbn; rewrite ?H3, (IH l); auto. }
  revert E. unfold omk. rewrite HD, HO, HI. rewrite <- (map_length (w_type W) (filter (uncal W) l')), <- (map_length (w_type W) (filter (uncal W) l)), HT, HL. destruct (length l =? 0); [discriminate|]. destruct (negb _); [discriminate|].
  destruct (obj_dim W l) as [r|]; [|discriminate]. cbn [bind]. destruct (obj_in W l) as [m|]; [|discriminate]. cbn [bind]. intros [= <-]. eexists. split; [reflexivity|]. cbn [om_infer om_known om_hasin].
  split. { apply oeq_iff. cbn. split; [split; auto|]. split; auto. apply greedy_copies; auto. }
  split; [apply (HP (fun b => b))|]. split; [apply (HP negb)|auto]. Qed.

(* PObjLib2.v -- projections and derivatives of the parametric operators of the library, as objects. *)
From Coq Require Import ZArith String Lia Reals.
From Verif Require Import LinAlg MatAlg BlockAlg OpsProofs TupleFinal GalProofs AffProofs ObjLib PObjProofs PObjLib.
From Verif Require Import ItpModel.
From Verif Require GenModel.
From Verif Require Import SpecPObj.
#[local] Open Scope nat_scope.
#[local] Open Scope list_scope.

Lemma term_projection solve junk n r m o g Vr Wr : solve_spec solve -> (forall k, length (junk k) = k) -> 0 < n -> 0 < r -> 0 < m -> wf_op n m o -> is_mat n r Vr -> is_mat n r (match Wr with Some A => A | None => Vr end) ->
  (let G := matmul (mT (match Wr with Some A => A | None => Vr end)) Vr in G = eye r \/ allclose G (eye r) = false) -> galerkin solve junk o Vr Wr = Ok g ->
  wf_op r m g /\ projection n r m Vr (match Wr with Some A => A | None => Vr end) (fun q u i => vget (matvec (entries2 o) (datavec o q u)) i) (fun q u i => vget (matvec (entries2 g) (datavec g q u)) i).
Proof. intros Hs Hj Hn Hr Hm Hw HV HW HC EG. cbv zeta in HC. set (T := match Wr with Some A => A | None => Vr end) in *. assert (ET : testbasis Vr Wr = T) by (unfold testbasis, T; destruct Wr; auto).
  destruct (galerkin_commutes solve junk n r m o Vr Wr Hs Hj Hn Hr Hm Hw HV) with (g := g) as (Hg & HP); auto. split; auto. rewrite ET in *.
  intros q u i Hq Hu Hi. destruct (HP q u Hq Hu) as (y & z & E1 & E2 & Hz & E3).
  assert (HVq : is_vec n (matvec Vr q)) by (apply (is_vec_matvec n r); auto).
  rewrite (apply_vec n m) in E1 by auto. injection E1 as <-. rewrite (apply_vec r m) in E2 by auto. injection E2 as <-.
  assert (HY : is_vec n (matvec (entries2 o) (datavec o (matvec Vr q) u))) by (apply (is_vec_matvec n (opdim o n m)), entries2_shape; auto).
  assert (K := f_equal (fun v => vget v i) E3). cbn beta in K. rewrite (vget_matvec r r) in K by (auto; mt). rewrite (vget_matvec r n) in K by (auto; mt).
  etransitivity; [|etransitivity; [exact K|]]; apply bsum_ext; intros k Hk.
  - f_equal. rewrite (mget_matmul r n r) by (auto; mt). apply bsum_ext. intros l Hl. rewrite (mget_mT n r) by auto. auto.
  - rewrite (mget_mT n r) by auto. auto. Qed.
Lemma projection_sum n r m Vr T K (c : nat -> R) (fs gs : nat -> fn) : (forall k, k < K -> projection n r m Vr T (fs k) (gs k)) ->
  projection n r m Vr T (fun q u i => bsum K (fun k => (c k * fs k q u i)%R)) (fun q u i => bsum K (fun k => (c k * gs k q u i)%R)).
Proof. intros H q u i Hq Hu Hi.
  rewrite (bsum_ext r _ (fun k => bsum K (fun t => (c t * (bsum n (fun l => mget T l i * mget Vr l k) * gs t q u k))%R))) by (intros k Hk; rewrite <- bsum_scal_l; apply bsum_ext; intros; ring).
  rewrite (bsum_ext n _ (fun l => bsum K (fun t => (c t * (mget T l i * fs t (matvec Vr q) u l))%R))) by (intros k Hk; rewrite <- bsum_scal_l; apply bsum_ext; intros; ring).
  rewrite bsum_swap, (bsum_swap n). apply bsum_ext. intros t Ht. rewrite !bsum_scal_l. f_equal. apply H; auto. Qed.

Theorem lib_affine_projects X solve junk eqv n r m x a ops ag Vr Wr : solve_spec solve -> (forall k, length (junk k) = k) -> 0 < n -> 0 < r -> 0 < m -> affine_of n m a ops ->
  is_mat n r Vr -> is_mat n r (match Wr with Some A => A | None => Vr end) ->
  (let G := matmul (mT (match Wr with Some A => A | None => Vr end)) Vr in G = eye r \/ allclose G (eye r) = false) ->
  pw_galerkin (lib_pworld X solve junk eqv) (inl a) Vr Wr = Ok ag ->
  xprojects (lib_pworld X solve junk eqv) n r m x (affine_dom x a) Vr Wr (inr (inl a)) (affine_fn a ops).
Proof. intros Hs Hj Hn Hr Hm HA HV HW HC EG0. assert (EG : exists b, aff_galerkin solve junk a Vr Wr = Ok b /\ ag = inl b).
  { cbn in EG0. unfold bindmap in EG0. destruct (aff_galerkin solve junk a Vr Wr) as [b|]; [|discriminate]. cbn in EG0. injection EG0 as <-. eauto. }
  destruct EG as (b & EG & ->). set (T := match Wr with Some A => A | None => Vr end) in *. assert (ET : testbasis Vr Wr = T) by (unfold testbasis, T; destruct Wr; auto).
  destruct (affgal_terms solve junk n r m a ops Vr Wr) with (ag := b) as (gs & HG & E1 & E2 & E3 & E4 & E5); auto; try (rewrite ET; auto).
  split. { cbn. unfold puncal. cbn. destruct HA as (-> & _). auto. }
  exists (inr (inl b)), (affine_fn b gs). split; [exact EG0|]. split.
  { intros p' HK. destruct (lib_affine X solve junk eqv r m x b gs Hr Hm HG p' HK) as (L1 & L2). split; auto. intros mu (D1 & D2). apply L2. split; [|rewrite E1, E2; auto]. intros k [Hk|Hk]; [apply D1; auto|congruence]. }
  intros mu (D1 & D2). unfold affine_fn. rewrite E1, E2. fold T.
  apply (projection_sum n r m Vr T (a_nterms a) (vget (match a_theta a mu with TS x => [x] | TV v => v end))
    (fun k q u i => vget (matvec (entries2 (nth k ops (OConst []))) (datavec (nth k ops (OConst [])) q u)) i) (fun k q u i => vget (matvec (entries2 (nth k gs (OConst []))) (datavec (nth k gs (OConst [])) q u)) i)).
  intros k Hk. destruct HA as (_ & HF & HL & _). assert (Hk1 : k < length ops) by lia.
  assert (Hgk : galerkin solve junk (nth k ops (OConst [])) Vr Wr = Ok (nth k gs (OConst []))).
  { clear - E5 Hk1. revert k Hk1. induction E5; intros k Hk1; cbn in Hk1; [lia|]. destruct k; cbn; auto. apply IHE5. lia. }
  assert (Hwk : wf_op n m (nth k ops (OConst []))). { unfold SpecParam.family in HF. rewrite Forall_forall in HF. apply HF. apply nth_In; auto. }
  apply (term_projection solve junk n r m _ _ Vr Wr Hs Hj Hn Hr Hm Hwk HV HW HC Hgk). Qed.
(* it can be projected: orthonormal bases *)
Theorem lib_affine_projectable X solve junk eqv n r m a ops Vr Wr : solve_spec solve -> (forall k, length (junk k) = k) -> 0 < n -> 0 < r -> 0 < m -> affine_of n m a ops ->
  is_mat n r Vr -> is_mat n r (match Wr with Some A => A | None => Vr end) -> matmul (mT (match Wr with Some A => A | None => Vr end)) Vr = eye r -> (forall d, a_cls a = CPoly d -> newton_guard d n) ->
  exists ag, pw_galerkin (lib_pworld X solve junk eqv) (inl a) Vr Wr = Ok ag.
Proof. intros Hs Hj Hn Hr Hm HA HV HW HC HG. set (T := match Wr with Some A => A | None => Vr end) in *. assert (ET : testbasis Vr Wr = T) by (unfold testbasis, T; destruct Wr; auto).
  destruct HA as (He & HF & HL & Hp). cbn. unfold bindmap, aff_galerkin. rewrite He.
  assert (K : exists gs, mapM (fun o => galerkin solve junk o Vr Wr) ops = Ok gs /\ SpecParam.family r m (a_cls a) gs /\ length gs = length ops).
  { clear - Hs Hj Hn Hr Hm HF HV HW HC HG ET. induction ops as [|o ops IH]. { exists []. repeat split; auto. constructor. }
    unfold SpecParam.family in HF. apply Forall_cons_iff in HF. destruct HF as ((Hw & Hc) & HF). destruct (IH HF) as (gs & Eg & Fg & Lg).
    destruct (galerkin_total solve junk n r m o Vr Wr) as (g & Eo); auto; try (rewrite ET; auto). { intros d H ->. cbn in Hc. apply HG. auto. }
    exists (g :: gs). cbn. rewrite Eo. cbn [bind]. rewrite Eg. cbn. split; auto. split; auto. constructor; auto. split; [|rewrite (galerkin_cls _ _ _ _ _ _ Eo); auto].
    eapply (term_projection solve junk n r m o g Vr Wr); eauto. }
  destruct K as (gs & -> & Fg & Lg). cbn [bind]. rewrite (aff_set_ok r m); auto; [|cbn; lia]. cbn. eauto. Qed.

(* ---- derivatives -------------------------------------------------------------------------------------------------- *)
Lemma differentiates_ext W r m o f g : (forall q u i, is_vec r q -> is_vec m u -> i < r -> f q u i = g q u i) -> differentiates W r m o f -> differentiates W r m o g.
Proof. intros H D q u ou Hq Hu. destruct (D q u ou Hq Hu) as (J & E1 & E2 & E3). exists J. split; auto. split; auto. intros dir i Hd Hi eps He. destruct (E3 dir i Hd Hi eps He) as (dl & Hdl). exists dl. intros h H0 Hh.
  assert (HA : forall t, is_vec r (along q dir t)) by (intros t; unfold is_vec, along; rewrite map_length, seq_length; apply Hq).
  rewrite <- !H; auto; apply Hu. Qed.
Theorem lib_affine_differentiates X solve junk eqv r m a ops mu : (forall k, length (junk k) = k) -> 0 < r -> 0 < m -> affine_of r m a ops -> (forall d, a_cls a = CPoly d -> newton_guard d r) ->
  affine_dom None a mu -> xdifferentiates (lib_pworld X solve junk eqv) r m mu (inr (inl a)) (affine_fn a ops).
Proof. intros Hj Hr Hm HA HG (D1 & D2) o Eo. set (th := match a_theta a mu with TS x => [x] | TV v => v end).
  assert (Eth : thetas a mu = Ok th /\ length th = a_nterms a). { unfold thetas, th. destruct (a_theta a mu); [rewrite D2; auto|auto]. }
  destruct Eth as (E1 & E2). assert (Hp : match a_pdim a with Some p => plen mu = p | None => True end) by (destruct (a_pdim a); auto).
  destruct (evaluate_ok r m a ops mu th Hr HA Hp E1 E2) as (e & Ee & Hw & Hc & _).
  assert (o = {| mo_cls := a_cls a; mo_ent := Some e |}). { cbn in Eo. destruct (aff_evaluate a mu) as [a2 y] eqn:E3. cbn in Ee. subst y. cbn in Eo. injection Eo as <-. auto. } subst o.
  rewrite <- Hc. apply (differentiates_ext _ _ _ _ (fun q u i => vget (matvec (entries2 e) (datavec e q u)) i)); [|apply lib_differentiates; auto; intros d H ->; apply HG; auto].
  intros q u i Hq Hu Hi. destruct (affine_eval solve junk r m a ops mu Hr Hm HA) as (e' & Ee' & _ & HB); auto. rewrite Ee in Ee'. injection Ee' as <-.
  destruct (bh_app _ _ _ _ _ HB q u (Some (V u)) Hq) as (y & Y1 & Y2 & Y3); [split; auto|]. rewrite <- Hc in Y1. destruct (bh_app _ _ _ _ _ (lib_behaves solve junk r m e Hr Hm Hw) q u (Some (V u)) Hq) as (z & Z1 & Z2 & Z3); [split; auto|].
  rewrite Y1 in Z1. injection Z1 as <-. rewrite <- Y3, <- Z3; auto. Qed.
Theorem lib_interpolated_differentiates X solve junk eqv r m t f A mu : (forall k, length (junk k) = k) -> 0 < r -> 0 < m -> i_entries t <> None -> i_interp t = Some f -> (forall d, i_cls t = CPoly d -> newton_guard d r) ->
  interpolated_dom r m t f A mu -> xdifferentiates (lib_pworld X solve junk eqv) r m mu (inr (inr t)) (interpolated_fn t A).
Proof. intros Hj Hr Hm He Hf HG (D1 & D2 & D3) o Eo. destruct (construct_ok (i_cls t) r m _ Hr D3) as (e & E1 & E2 & E3 & E4).
  assert (o = {| mo_cls := i_cls t; mo_ent := Some e |}). { cbn in Eo. unfold i_evaluate in Eo. destruct (i_entries t); [|congruence]. rewrite Hf, D1, Nat.eqb_refl in Eo. cbn [negb] in Eo. rewrite D2 in Eo. cbn [bind] in Eo. rewrite E1 in Eo. cbn in Eo. injection Eo as <-. auto. } subst o.
  rewrite <- E3. apply (differentiates_ext _ _ _ _ (fun q u i => vget (matvec (entries2 e) (datavec e q u)) i)); [|apply lib_differentiates; auto; intros d H ->; apply HG; auto].
  intros q u i Hq Hu Hi. unfold interpolated_fn. rewrite E4. rewrite (datavec_cls (proto (i_cls t)) e) by (rewrite cls_proto; auto). auto. Qed.

(* PObjProofs.v -- parametric models made of any operator objects. *)
From Coq Require Import ZArith String Lia.
From Verif Require Import LinAlg MatAlg MonoRhs ParaFit ObjProofs ObjEq ObjMain.
From Verif Require Import SpecPObj.
#[local] Open Scope nat_scope.
#[local] Open Scope list_scope.

Lemma known_in {W} (P : pworld W) l n : In n (known_ps P l) <-> exists p, In (inr p) l /\ pw_p P p = Some n.
Proof. unfold known_ps. rewrite in_flat_map. split.
  - intros ([o|p] & H1 & H2); [destruct H2|]. destruct (pw_p P p) as [k|] eqn:E; [|destruct H2]. destruct H2 as [<-|[]]. eauto.
  - intros (p & H1 & H2). exists (inr p). split; auto. rewrite H2. left; auto. Qed.
Lemma common_ok l : (forall a b, In a l -> In b l -> a = b) -> common_p l = Ok (match l with [] => None | n :: _ => Some n end).
Proof. intros H. unfold common_p. assert (HN := NoDup_nodup Nat.eq_dec l). assert (HI : forall z, In z (nodup Nat.eq_dec l) <-> In z l) by (intros z; apply nodup_In). destruct l as [|n l]; auto.
  destruct (nodup Nat.eq_dec (n :: l)) as [|a [|b t]].
  - exfalso. apply (HI n). left; auto.
  - do 2 f_equal. apply H; [apply HI|]; left; auto.
  - exfalso. assert (a = b) by (apply H; apply HI; [left|right; left]; auto). subst. inversion HN as [|? ? K _]. apply K. left; auto. Qed.
Lemma common_inv l x : common_p l = Ok x -> (forall n, In n l -> x = Some n) /\ (forall n, x = Some n -> In n l).
Proof. unfold common_p. assert (HI : forall z, In z (nodup Nat.eq_dec l) <-> In z l) by (intros z; apply nodup_In). destruct (nodup Nat.eq_dec l) as [|a [|b t]]; try discriminate; intros [= <-]; split; intros n Hn.
  - apply HI in Hn. destruct Hn. - discriminate. - apply HI in Hn. destruct Hn as [ -> | [] ]; auto. - injection Hn as ->. apply HI. left; auto. Qed.
Lemma common_err l a b : In a l -> In b l -> a <> b -> common_p l = Err DimensionalityError.
Proof. intros Ha Hb N. destruct (common_p l) as [x|e] eqn:E. - destruct (common_inv _ _ E) as (K & _). assert (x = Some a) by auto. assert (x = Some b) by auto. congruence.
  - unfold common_p in E. destruct (nodup Nat.eq_dec l) as [|? [|? ?]]; try discriminate. auto. Qed.

Lemma learned_both {W} (P : pworld W) a : uncal (both W P) a = learned P a.
Proof. destruct a; auto. Qed.
Lemma both_accepts W P k l : (exists d, omk (both W P) k l = Ok d) <-> l <> [] /\ NoDup (map (optype P) (filter (learned P) l)) /\
  (forall a b, In a l -> In b l -> learned P a = false -> learned P b = false -> states P a = states P b /\ forall x y, inputs_of P a = Some x -> inputs_of P b = Some y -> x = y).
Proof. assert (HO := omk_accepts (both W P) k l). rewrite (filter_ext _ _ (learned_both P)) in HO. split.
  - intros H. apply HO in H. destruct H as (H1 & H2 & H3). split; auto. split; auto. intros a b Ha Hb La Lb. apply H3; auto; rewrite learned_both; auto.
  - intros (H1 & H2 & H3). apply HO. split; auto. split; auto. intros a b Ha Hb La Lb. rewrite learned_both in La, Lb. apply H3; auto. Qed.
Theorem xmk_accepts W P k l : (exists d, xmk W P k l = Ok d) <-> l <> [] /\ NoDup (map (optype P) (filter (learned P) l)) /\
  (forall a b, In a l -> In b l -> learned P a = false -> learned P b = false -> states P a = states P b /\ forall x y, inputs_of P a = Some x -> inputs_of P b = Some y -> x = y) /\
  agree_p P l /\ (forall p p' n, In (inr p) l -> In (inr p') l -> pw_p P p = None -> pw_p P p' = Some n -> exists q, pw_setp P p n = Ok q).
Proof. assert (HO := both_accepts W P k l). unfold xmk. split.
  - intros (d & E). destruct (omk (both W P) k l) as [b|] eqn:Eb; [|discriminate]. cbn [bind] in E. destruct (common_p (known_ps P l)) as [x|] eqn:Ex; [|discriminate]. cbn [bind] in E.
    destruct (mapM (give_p P x) l) as [l'|] eqn:El; [|discriminate]. destruct (proj1 HO) as (H1 & H2 & H3); eauto. split; auto. split; auto. split; auto. destruct (common_inv _ _ Ex) as (K & _). split.
    + intros p p' n n' Hp Hp' En En'. assert (x = Some n) by (apply K, known_in; eauto). assert (x = Some n') by (apply K, known_in; eauto). congruence.
    + intros p p' n Hp Hp' En En'. assert (x = Some n) by (apply K, known_in; eauto). subst x. apply mapM_inv in El. destruct (F2_in _ _ _ El (inr p) Hp) as (b' & Hb). unfold give_p in Hb. rewrite En in Hb.
      destruct (pw_setp P p n) as [q|]; [eauto|discriminate].
  - intros (H1 & H2 & H3 & H4 & H5). destruct (proj2 HO) as (b & Eb); [auto|]. rewrite Eb. cbn [bind]. rewrite common_ok.
    2:{ intros u v Hu Hv. apply known_in in Hu, Hv. destruct Hu as (p & Hp & Ep), Hv as (p' & Hp' & Ep'). exact (H4 p p' u v Hp Hp' Ep Ep'). }
    cbn [bind]. destruct (mapM_ex (give_p P match known_ps P l with [] => None | n :: _ => Some n end) (fun _ _ => True) l) as (l' & -> & _).
    { intros [o|p] Ha; [exists (inl o); auto|]. unfold give_p. destruct (known_ps P l) as [|n t] eqn:Ek; [eexists; split; reflexivity|]. destruct (pw_p P p) as [n0|] eqn:En; [eexists; split; reflexivity|].
      assert (HI : In n (known_ps P l)) by (rewrite Ek; left; auto). apply known_in in HI. destruct HI as (p' & Hp' & En'). destruct (H5 p p' n Ha Hp' En En') as (q & ->). eexists. split; reflexivity. }
    cbn [bind]. eauto. Qed.
Theorem xmk_disagree W P k l p p' n n' : NoDup (map (optype P) (filter (learned P) l)) ->
  (forall a b, In a l -> In b l -> learned P a = false -> learned P b = false -> states P a = states P b /\ forall x y, inputs_of P a = Some x -> inputs_of P b = Some y -> x = y) ->
  In (inr p) l -> In (inr p') l -> pw_p P p = Some n -> pw_p P p' = Some n' -> n <> n' -> xmk W P k l = Err DimensionalityError.
Proof. intros HN HA Hp Hp' En En' N. destruct (proj2 (both_accepts W P k l)) as (b & Eb). { split; [intros ->; destruct Hp|auto]. } unfold xmk. rewrite Eb. cbn [bind]. rewrite (common_err _ n n') by (auto; apply known_in; eauto). auto. Qed.

Definition resized {W} (P : pworld W) (x : option nat) (a a' : obj W + pobj P) : Prop :=
  match a, a' with inl o, inl o' => o' = o | inr p, inr p' => kept P x p p' | _, _ => False end.
Lemma give_resized {W} (P : pworld W) x a a' : give_p P x a = Ok a' <-> resized P x a a'.
Proof. unfold give_p, resized, kept, bindmap. destruct a as [o|p]; [|destruct x as [n|]; [destruct (pw_p P p); [|destruct (pw_setp P p n) as [q|e]; cbn]|]]; destruct a' as [o'|p']; split; intros K; try discriminate; try contradiction; try congruence; try (injection K as <-; auto); subst; auto. Qed.
Lemma xmk_inv W P k l d : xmk W P k l = Ok d -> exists b, omk (both W P) k l = Ok b /\ common_p (known_ps P l) = Ok (xm_p d) /\ Forall2 (resized P (xm_p d)) l (om_ops (xm_base d)) /\
  om_kind (xm_base d) = k /\ om_infer (xm_base d) = om_infer b /\ om_known (xm_base d) = om_known b /\ om_hasin (xm_base d) = om_hasin b /\ om_r (xm_base d) = om_r b /\ om_m (xm_base d) = om_m b.
Proof. unfold xmk. destruct (omk (both W P) k l) as [b|] eqn:Eb; [|discriminate]. cbn [bind]. destruct (common_p (known_ps P l)) as [x|] eqn:Ex; [|discriminate]. cbn [bind].
  destruct (mapM (give_p P x) l) as [l'|] eqn:El; [|discriminate]. intros [= <-]. exists b. cbn. split; auto. split; auto. split.
  - apply mapM_inv in El. clear - El. induction El; constructor; auto. apply give_resized; auto.
  - split; [|auto 10]. apply (omk_state _ _ _ _ Eb). Qed.
(* what the constructor sets *)
Theorem xmk_state W P k l d : xmk W P k l = Ok d -> om_kind (xm_base d) = k /\ om_hasin (xm_base d) = existsb (has_in P) l /\
  (forall p n, In (inr p) l -> pw_p P p = Some n -> xm_p d = Some n) /\ ((forall p, In (inr p) l -> pw_p P p = None) -> xm_p d = None) /\
  length (om_ops (xm_base d)) = length l /\
  forall i a, nth_error l i = Some a -> match a with
    | inl o => nth_error (om_ops (xm_base d)) i = Some (inl o)
    | inr p => match pw_p P p, xm_p d with
               | None, Some n => exists p', pw_setp P p n = Ok p' /\ nth_error (om_ops (xm_base d)) i = Some (inr p')
               | _, _ => nth_error (om_ops (xm_base d)) i = Some (inr p)
               end
    end.
Proof. intros E. destruct (xmk_inv _ _ _ _ _ E) as (b & Eb & Ex & HF & E1 & E2 & E3 & E4 & E5 & E6). split; auto. destruct (omk_state _ _ _ _ Eb) as (_ & _ & Eh & _). rewrite E4, Eh. split; auto.
  destruct (common_inv _ _ Ex) as (K1 & K2). split; [intros p n Hp En; apply K1, known_in; eauto|]. split.
  { intros HN. destruct (xm_p d) as [n|]; auto. assert (HI := K2 n eq_refl). apply known_in in HI. destruct HI as (p & Hp & En). rewrite HN in En by auto. discriminate. }
  split; [clear - HF; induction HF; cbn; auto|]. intros i a Ha. clear - HF Ha. revert i Ha. induction HF as [|x y l l' H HF IH]; intros [|i] Ha; try discriminate; [|apply (IH i Ha)]. injection Ha as <-. cbn [nth_error].
  unfold resized, kept in H. destruct x as [o|p], y as [o'|p']; try contradiction; subst; auto. destruct (xm_p d) as [n|], (pw_p P p) as [n'|]; subst; auto. eauto. Qed.
Theorem xmk_all_p W P k l d p : plain_setter P -> xmk W P k l = Ok d -> In (inr p) (om_ops (xm_base d)) -> pw_p P p = xm_p d.
Proof. intros HS E Hp. destruct (xmk_inv _ _ _ _ _ E) as (b & Eb & Ex & HF & _). destruct (common_inv _ _ Ex) as (K1 & K2).
  assert (K : exists a, In a l /\ resized P (xm_p d) a (inr p)). { clear - HF Hp. induction HF as [|x y l l' H HF IH]; [destruct Hp|]. destruct Hp as [ -> | Hp ]; [exists x; split; [left|]; auto|]. destruct IH as (a & Ha & H'); auto. exists a. split; [right|]; auto. }
  destruct K as ([o|p0] & Ha & HR); [destruct HR|]. unfold resized, kept in HR. destruct (xm_p d) as [n|] eqn:Ed.
  - destruct (pw_p P p0) as [n'|] eqn:E0; subst; [|apply (HS _ _ _ HR)]. rewrite E0. symmetry. apply K1, known_in. eauto.
  - subst p0. destruct (pw_p P p) as [n'|] eqn:E0; auto. symmetry. apply K1, known_in. eauto. Qed.

(* ---- evaluate ---- *)
Lemma resized_with {W} (P : pworld W) x p a' : resized P x (inr p) a' -> exists p', a' = inr p' /\ kept P x p p'.
Proof. unfold resized. destruct a' as [o'|p']; [contradiction|]. eauto. Qed.
Definition ready {W} (P : pworld W) (r m : nat) (mu : pval) (a : obj W + pobj P) (F : pfn) : Prop :=
  exists o, (match a with inl o => Ok o | inr p => pw_eval P p mu end) = Ok o /\ behaves W r m o (F mu) /\ (takes_in W o = true -> takes_in (both W P) a = true).
Lemma ops_ready W P r m dom d Fs mu : xmodel_of W P r m dom d Fs -> dom mu -> Forall2 (ready P r m mu) (om_ops (xm_base d)) Fs.
Proof. intros (k & l & E & HD) Hmu. destruct (xmk_inv _ _ _ _ _ E) as (b & Eb & Ex & HF & _). clear E Eb Ex. revert Fs HD. induction HF as [|a a' l l' H HF IH]; intros Fs HD; inversion HD as [|? F ? Fs' HA HD']; subst; constructor; auto.
  destruct a as [o|p].
  - destruct a' as [o'|]; [|destruct H]. cbn in H. subst o'. exists o. split; auto.
  - destruct (resized_with P _ _ _ H) as (p' & -> & HW). destruct (HA p' HW) as (_ & HE). destruct (HE mu Hmu) as (o & E1 & E2 & E3). exists o. split; auto. split; auto. intros Ht. specialize (E3 Ht). unfold takes_in. cbn. destruct (pw_in P p'); congruence. Qed.
Lemma xmodel_ne W P r m dom d Fs : xmodel_of W P r m dom d Fs -> om_ops (xm_base d) <> [].
Proof. intros (k & l & E & HD). destruct (xmk_inv _ _ _ _ _ E) as (b & Eb & _ & HF & _). destruct l; [discriminate|]. inversion HF. congruence. Qed.
Lemma xmodel_hasin W P r m dom d Fs : xmodel_of W P r m dom d Fs -> existsb (takes_in (both W P)) (om_ops (xm_base d)) = om_hasin (xm_base d).
Proof. intros (k & l & E & HD). destruct (xmk_inv _ _ _ _ _ E) as (b & Eb & _ & HF & _ & _ & _ & -> & _). destruct (omk_state _ _ _ _ Eb) as (_ & _ & -> & _). clear E Eb. revert Fs HD. induction HF as [|a a' l l' H HF IH]; intros Fs HD; auto.
  inversion HD as [|? F ? Fs' HA HD']; subst. cbn [existsb]. rewrite (IH Fs') by auto. f_equal. destruct a as [o|p]; [destruct a'; [|destruct H]; cbn in H; subst; auto|].
  destruct (resized_with P _ _ _ H) as (p' & -> & HW). destruct (HA p' HW) as (Hi & _). unfold takes_in. cbn. rewrite Hi. auto. Qed.
Theorem xevaluate_model W P r m dom d Fs mu : xmodel_of W P r m dom d Fs -> dom mu ->
  exists e, xevaluate W P d mu = Ok e /\ om_kind e = om_kind (xm_base d) /\ model_of W r m e (at_mu Fs mu) /\ (om_hasin e = true -> om_hasin (xm_base d) = true) /\
    Forall2 (fun a o => match a with inl o' => o = o' | inr p => pw_eval P p mu = Ok o end) (om_ops (xm_base d)) (om_ops e).
Proof. intros HX Hmu. assert (HR := ops_ready _ _ _ _ _ _ _ _ HX Hmu). assert (Hne := xmodel_ne _ _ _ _ _ _ _ HX). assert (Hh := xmodel_hasin _ _ _ _ _ _ _ HX). unfold xevaluate.
  assert (K : exists l, mapM (fun a => match a with inl o => Ok o | inr p => pw_eval P p mu end) (om_ops (xm_base d)) = Ok l /\ Forall2 (behaves W r m) l (at_mu Fs mu) /\
     (existsb (takes_in W) l = true -> existsb (takes_in (both W P)) (om_ops (xm_base d)) = true) /\ Forall2 (fun a o => match a with inl o' => o = o' | inr p => pw_eval P p mu = Ok o end) (om_ops (xm_base d)) l).
  { clear HX Hne Hh. induction HR as [|a F l Fs' (o & E1 & E2 & E3) HR IH]. { exists []. repeat (split; auto). constructor. } destruct IH as (l' & L1 & L2 & L3 & L4).
    exists (o :: l'). cbn [mapM]. rewrite E1. cbn [bind]. rewrite L1. cbn [bind]. split; auto. split; [constructor; auto|]. split; [|constructor; auto; destruct a; congruence].
    cbn [existsb]. rewrite !Bool.orb_true_iff. tauto. }
  destruct K as (l & -> & L2 & L3 & L4). cbn [bind]. destruct (omk_behaves W (om_kind (xm_base d)) r m l (at_mu Fs mu)) as (e & E & HM & Ek & Eo & _ & Ei & _); auto.
  { intros ->. destruct (om_ops (xm_base d)); [apply Hne; reflexivity|inversion L4]. }
  exists e. split; auto. split; auto. split; auto. rewrite Ei, Eo, <- Hh. auto. Qed.
(* the first failing operator *)
Theorem xevaluate_raises W P d pre p post mu x : om_ops (xm_base d) = pre ++ inr p :: post -> (forall p', In (inr p') pre -> exists o, pw_eval P p' mu = Ok o) -> pw_eval P p mu = Err x ->
  xevaluate W P d mu = Err x /\ (forall q u, xrhs W P d mu q u = Err x) /\ (forall q u, xjacobian W P d mu q u = Err x) /\ (forall q n u, xpredict W P d mu q n u = Err x) /\
  (forall t q f, xcont_rhs W P d t mu q f = Err x) /\ (forall t q f, xcont_jacobian W P d t mu q f = Err x).
Proof. intros E HP HE. assert (K : xevaluate W P d mu = Err x).
  { unfold xevaluate. rewrite E. clear E. assert (K : mapM (fun a => match a with inl o => Ok o | inr p => pw_eval P p mu end) (pre ++ inr p :: post) = Err x).
    { induction pre as [|[o|p'] pre IH]; cbn [app mapM].
      - rewrite HE. auto. - cbn [bind]. rewrite IH; auto. intros; apply HP; right; auto. - destruct (HP p') as (o & ->); [left; auto|]. cbn [bind]. rewrite IH; auto. intros; apply HP; right; auto. }
    match goal with |- bind ?z _ = _ => change z with (mapM (fun a => match a with inl o => Ok o | inr p => pw_eval P p mu end) (pre ++ inr p :: post)) end. rewrite K. auto. }
  split; auto. unfold xrhs, xjacobian, xpredict, xcont_rhs, xcont_jacobian. rewrite K. cbn [bind]. auto 10. Qed.

(* ---- rhs, jacobian, predict ---- *)
Lemma xin_mono W P (d : xmodel W P) (e : omodel W) m {A} u (wrap : vec -> A) ou : (om_hasin e = true -> om_hasin (xm_base d) = true) -> xinput d m u wrap ou -> model_input e m u wrap ou.
Proof. intros H (Hu & Hin). split; auto. Qed.
Theorem xrhs_total W P r m dom d Fs mu q u ou : xmodel_of W P r m dom d Fs -> dom mu -> is_vec r q -> xinput d m u V ou ->
  exists y, xrhs W P d mu (V q) ou = Ok (V y) /\ is_vec r y /\ forall i, i < r -> vget y i = lsum (map (fun F => F mu q u i) Fs).
Proof. intros HX Hmu Hq Hu. destruct (xevaluate_model _ _ _ _ _ _ _ _ HX Hmu) as (e & E & _ & HM & Hh & _). unfold xrhs. rewrite E. cbn [bind]. destruct (orhs_total W r m e _ q u ou HM Hq (xin_mono _ _ _ _ _ _ _ _ Hh Hu)) as (y & Ey & Hy & Hv).
  exists y. split; auto. split; auto. intros i Hi. rewrite Hv by auto. unfold total, at_mu. rewrite map_map. auto. Qed.
Theorem xjacobian_derivative W P r m dom d Fs mu q u ou oa : 0 < r -> xmodel_of W P r m dom d Fs -> dom mu -> Forall2 (xdifferentiates P r m mu) (om_ops (xm_base d)) Fs -> is_vec r q -> xinput d m u (fun v => v) ou -> xinput d m u V oa ->
  exists J, xjacobian W P d mu q ou = Ok J /\ is_mat r r J /\ forall dir, is_vec r dir -> exists g : R -> vec,
    (forall t, xrhs W P d mu (V (along q dir t)) oa = Ok (V (g t))) /\ forall i, i < r -> derivable_pt_lim (fun t => vget (g t) i) 0 (vget (matvec J dir) i).
Proof. intros Hr HX Hmu HD Hq Hu Ha. destruct (xevaluate_model _ _ _ _ _ _ _ _ HX Hmu) as (e & E & _ & HM & Hh & HE). unfold xjacobian, xrhs. rewrite E. cbn [bind].
  apply (ojacobian_derivative W r m e (at_mu Fs mu) q u ou oa); auto; try (apply (xin_mono _ _ d); auto).
  clear - HD HE. revert HE. generalize (om_ops e). induction HD as [|a F l Fs H HD IH]; intros le HE; inversion HE as [|? o ? le' Ho HE']; subst; constructor; auto. destruct a; cbn in H; subst; auto. Qed.
Lemma mget_colv r Q i j : i < r -> mget Q i j = vget (colv r Q j) i.
Proof. intros Hi. unfold colv, vget. rewrite (nth_map_in _ _ _ _ 0) by (rewrite seq_length; auto). rewrite seq_nth by auto. auto. Qed.
Theorem xpredict_recurrence W P r m dom d Fs mu q0 n inputs : 0 < m -> xmodel_of W P r m dom d Fs -> dom mu -> is_vec r q0 -> xenough d m inputs n -> 1 <= n ->
  exists Q, xpredict W P d mu (V q0) (Z.of_nat n) inputs = Ok Q /\ is_mat r n Q /\ colv r Q 0 = q0 /\
    forall j u, j + 1 < n -> is_vec m u -> (om_hasin (xm_base d) = true -> forall U, inputs = Some (UArr U) -> u = colv m (atleast_2d U) j) ->
      forall i, i < r -> mget Q i (j + 1) = lsum (map (fun F => F mu (colv r Q j) u i) Fs).
Proof. intros Hm HX Hmu Hq HE Hn. destruct (xevaluate_model _ _ _ _ _ _ _ _ HX Hmu) as (e & E & _ & HM & Hh & _). unfold xpredict. rewrite E. cbn [bind].
  destruct (opredict_recurrence W r m e (at_mu Fs mu) q0 n inputs Hm HM Hq) as (Q & EQ & HQ & H0 & HR); auto. { intros H. apply HE; auto. }
  exists Q. split; auto. split; auto. split; auto. intros j u Hj Hu HU i Hi.
  destruct (orhs_total W r m e (at_mu Fs mu) (colv r Q j) u (ostep e inputs j) HM) as (y & Ey & Hy & Hv). { apply is_vec_colv. }
  { split; auto. intros He. unfold ostep. rewrite He. destruct (HE (Hh He)) as (U & k & -> & HU2 & _). rewrite (HU (Hh He) U eq_refl). rewrite (is_mat_nrows _ _ _ HU2). auto. }
  rewrite HR in Ey by auto. injection Ey as <-. rewrite (mget_colv r) by auto. rewrite Hv by auto. unfold total, at_mu. rewrite map_map. auto. Qed.
(* the continuous classes *)
Theorem xcont_input W P d t mu q f : xcont_rhs W P d t mu q f = (do e <- xevaluate W P d mu; if om_hasin e then match f with Some g => orhs W e q (Some (g t)) | None => Err TypeError end else orhs W e q None).
Proof. unfold xcont_rhs. destruct (xevaluate W P d mu); auto. cbn [bind]. apply ocont_rhs_input. Qed.
Theorem xcont_total W P r m dom d Fs mu t q f : xmodel_of W P r m dom d Fs -> dom mu -> is_vec r q -> is_vec m (f t) ->
  exists y, xcont_rhs W P d t mu (V q) (Some (fun s => V (f s))) = Ok (V y) /\ is_vec r y /\ forall i, i < r -> vget y i = lsum (map (fun F => F mu q (f t) i) Fs).
Proof. intros HX Hmu Hq Hu. destruct (xevaluate_model _ _ _ _ _ _ _ _ HX Hmu) as (e & E & _ & HM & Hh & _). rewrite xcont_input, E. cbn [bind].
  destruct (orhs_total W r m e (at_mu Fs mu) q (f t) (if om_hasin e then Some (V (f t)) else None) HM Hq) as (y & Ey & Hy & Hv). { split; auto. intros ->. auto. }
  exists y. split; [destruct (om_hasin e); auto|]. split; auto. intros i Hi. rewrite Hv by auto. unfold total, at_mu. rewrite map_map. auto. Qed.
Theorem xcont_derivative W P r m dom d Fs mu t q f : 0 < r -> xmodel_of W P r m dom d Fs -> dom mu -> Forall2 (xdifferentiates P r m mu) (om_ops (xm_base d)) Fs -> is_vec r q -> is_vec m (f t) ->
  exists J, xcont_jacobian W P d t mu q (Some f) = Ok J /\ is_mat r r J /\ forall dir, is_vec r dir -> exists g : R -> vec,
    (forall s, xcont_rhs W P d t mu (V (along q dir s)) (Some (fun s => V (f s))) = Ok (V (g s))) /\ forall i, i < r -> derivable_pt_lim (fun s => vget (g s) i) 0 (vget (matvec J dir) i).
Proof. intros Hr HX Hmu HD Hq Hu. destruct (xevaluate_model _ _ _ _ _ _ _ _ HX Hmu) as (e & E & _ & HM & Hh & HE). unfold xcont_jacobian, xcont_rhs. rewrite E. cbn [bind]. rewrite ocont_jac_input.
  assert (HF : Forall2 (differentiates W r m) (om_ops e) (at_mu Fs mu)). { clear - HD HE. revert HE. generalize (om_ops e). induction HD as [|a F l Fs H HD IH]; intros le HE; inversion HE as [|? o ? le' Ho HE']; subst; constructor; auto. destruct a; cbn in H; subst; auto. }
  destruct (ojacobian_derivative W r m e (at_mu Fs mu) q (f t) (if om_hasin e then Some (f t) else None) (if om_hasin e then Some (V (f t)) else None) Hr HM HF Hq) as (J & EJ & HJ & HV); try (split; auto; intros ->; auto).
  exists J. split; [destruct (om_hasin e); auto|]. split; auto. intros dir Hd. destruct (HV dir Hd) as (g & Hg & HL). exists g. split; auto. intros s. rewrite ocont_rhs_input. specialize (Hg s). destruct (om_hasin e); auto. Qed.
Theorem xcont_needs_input W P d t mu q q' e : xevaluate W P d mu = Ok e -> om_hasin e = true -> xcont_rhs W P d t mu q None = Err TypeError /\ xcont_jacobian W P d t mu q' None = Err TypeError.
Proof. intros E Hh. unfold xcont_rhs, xcont_jacobian. rewrite E. cbn [bind]. rewrite ocont_rhs_input, ocont_jac_input, Hh. auto. Qed.

(* ---- galerkin ---- *)
Theorem xgalerkin_projects W P n r m dom d Fs Vr Wr d' : Forall2 (xprojects P n r m (xm_p d') dom Vr Wr) (om_ops (xm_base d)) Fs -> xgalerkin W P d Vr Wr = Ok d' ->
  om_kind (xm_base d') = om_kind (xm_base d) /\ exists Fs', xmodel_of W P r m dom d' Fs' /\
    forall mu, dom mu -> projection n r m Vr (match Wr with Some A => A | None => Vr end) (total (at_mu Fs mu)) (total (at_mu Fs' mu)).
Proof. intros HP E. unfold xgalerkin in E. destruct (mapM _ (om_ops (xm_base d))) as [l'|] eqn:El; [|discriminate]. cbn [bind] in E. split. { apply (xmk_state _ _ _ _ _ E). }
  assert (K : exists Fs', Forall2 (xdescribed P r m (xm_p d') dom) l' Fs' /\ forall mu, dom mu -> Forall2 (projection n r m Vr (match Wr with Some A => A | None => Vr end)) (at_mu Fs mu) (at_mu Fs' mu)).
  { apply mapM_inv in El. clear E. revert l' El. induction HP as [|a F l Fs (Hc & a' & F' & Hg & Hd & HJ) HP IH]; intros l' El; inversion El as [|? b ? l2 Hb El2]; subst. { exists []. split; constructor. }
    destruct (IH l2 El2) as (Fs' & K1 & K2). exists (F' :: Fs'). rewrite learned_both, Hc in Hb. assert (b = a') by (destruct a, a'; try contradiction; cbn in Hb; rewrite Hg in Hb; cbn in Hb; congruence). subst b. split; [constructor; auto|]. intros mu Hmu. constructor; auto. apply K2; auto. }
  destruct K as (Fs' & K1 & K2). exists Fs'. split. { exists (om_kind (xm_base d)), l'. auto. } intros mu Hmu. apply total_proj; auto. Qed.

(* ---- == and copy ---- *)
Theorem xeq_symmetric W P a b : (forall x y, pw_eq P x y = pw_eq P y x) -> xeq W P a b = xeq W P b a.
Proof. intros H. apply (oeq_symmetric (both W P)). exact H. Qed.
Theorem xeq_means_paired W P a b : xeq W P a b = true -> om_kind (xm_base a) = om_kind (xm_base b) /\ om_r (xm_base a) = om_r (xm_base b) /\ om_m (xm_base a) = om_m (xm_base b) /\
  exists l, Permutation l (om_ops (xm_base b)) /\ Forall2 (fun x y => pw_eq P x y = true) (om_ops (xm_base a)) l.
Proof. intros H. destruct (oeq_means_paired (both W P) _ _ H) as ((H1 & H2 & H3) & HP). auto. Qed.
Lemma omk_map_eq W k l l' d : omk W k l = Ok d -> map (uncal W) l' = map (uncal W) l -> map (w_type W) l' = map (w_type W) l -> map (w_dim W) l' = map (w_dim W) l -> map (w_in W) l' = map (w_in W) l ->
  omk W k l' = Ok {| om_kind := om_kind d; om_ops := l'; om_infer := om_infer d; om_known := om_known d; om_hasin := om_hasin d; om_r := om_r d; om_m := om_m d |}.
Proof. intros E L3 L4 L5 L6.
  assert (HL : length l' = length l) by (rewrite <- (map_length (uncal W)), L3; apply map_length).
  assert (HP : forall (p : bool -> bool), positions (fun o => p (uncal W o)) l' = positions (fun o => p (uncal W o)) l).
  { intros p. unfold positions. rewrite HL. generalize 0. clear - L3. generalize (length l). revert l L3. induction l' as [|a l' IH]; intros [|b l] L3 n i; try discriminate; [destruct n; auto|]. destruct n as [|n]; auto. cbn in L3. injection L3 as H1 H2.
    cbn [seq combine filter map snd]. rewrite H1. destruct (p (uncal W b)); cbn [map]; rewrite (IH l H2 n (S i)); auto. }
  assert (HT : map (w_type W) (filter (uncal W) l') = map (w_type W) (filter (uncal W) l)).
  { clear - L3 L4. revert l L3 L4. induction l' as [|a l' IH]; intros [|b l] L3 L4; try discriminate; auto. cbn in *. injection L3 as H1 H2. injection L4 as H3 H4. rewrite H1. destruct (uncal W b); cbn; rewrite ?H3, (IH l); auto. }
  assert (HD : obj_dim W l' = obj_dim W l).
  { unfold obj_dim. f_equal. clear - L3 L5. revert l L3 L5. induction l' as [|a l' IH]; intros [|b l] L3 L5; try discriminate; auto. cbn in *. injection L3 as H1 H2. injection L5 as H3 H4. rewrite H1. destruct (uncal W b); cbn; rewrite ?H3, (IH l); auto. }
  assert (HI : existsb (takes_in W) l' = existsb (takes_in W) l).
  { clear - L6. revert l L6. induction l' as [|a l' IH]; intros [|b l] L6; try discriminate; auto. cbn in *. injection L6 as H1 H2. unfold takes_in at 1 3. rewrite H1, (IH l); auto. }
  assert (HO : obj_in W l' = obj_in W l).
  { unfold obj_in. rewrite HI. destruct (existsb (takes_in W) l); auto. f_equal. clear - L3 L6. revert l L3 L6. induction l' as [|a l' IH]; intros [|b l] L3 L6; try discriminate; auto. cbn in *. injection L3 as H1 H2. injection L6 as H3 H4.
    rewrite H1. destruct (uncal W b); cbn; rewrite ?H3, (IH l); auto. }
  revert E. unfold omk. rewrite HD, HO, HI. rewrite <- (map_length (w_type W) (filter (uncal W) l')), <- (map_length (w_type W) (filter (uncal W) l)), HT, HL. destruct (length l =? 0); [discriminate|]. destruct (negb _); [discriminate|].
  destruct (obj_dim W l) as [r|]; [|discriminate]. cbn [bind]. destruct (obj_in W l) as [m|]; [|discriminate]. cbn [bind]. intros [= <-]. cbn. f_equal. f_equal; [apply (HP (fun b => b))|apply (HP negb)]. Qed.
Lemma xmk_base W P k l d : plain_setter P -> xmk W P k l = Ok d -> omk (both W P) k (om_ops (xm_base d)) = Ok (xm_base d).
Proof. intros HS E. destruct (xmk_inv _ _ _ _ _ E) as (b & Eb & Ex & HF & E1 & E2 & E3 & E4 & E5 & E6).
  assert (K : map (uncal (both W P)) (om_ops (xm_base d)) = map (uncal (both W P)) l /\ map (w_type (both W P)) (om_ops (xm_base d)) = map (w_type (both W P)) l /\ map (w_dim (both W P)) (om_ops (xm_base d)) = map (w_dim (both W P)) l /\ map (w_in (both W P)) (om_ops (xm_base d)) = map (w_in (both W P)) l).
  { clear - HF HS. induction HF as [|a a' l l' H HF IH]; auto. destruct IH as (I1 & I2 & I3 & I4). cbn [map]. rewrite I1, I2, I3, I4. destruct a as [o|p], a' as [o'|p']; cbn in H; try contradiction; subst; auto. unfold kept in H.
    destruct (xm_p d) as [n|]; [destruct (pw_p P p)|]; subst; auto. destruct (HS _ _ _ H) as (_ & S1 & S2 & S3 & S4). unfold uncal. cbn. rewrite S1, S2, S3, S4. auto. }
  destruct K as (K1 & K2 & K3 & K4). rewrite (omk_map_eq _ _ _ _ _ Eb K1 K2 K3 K4). rewrite <- E2, <- E3, <- E4, <- E5, <- E6. replace (om_kind b) with (om_kind (xm_base d)); [destruct (xm_base d); auto|]. rewrite E1. symmetry. apply (omk_state _ _ _ _ Eb). Qed.
Definition same_p {W} (P : pworld W) (a c : obj W + pobj P) : Prop :=
  match a, c with inl _, inl _ => True | inr p, inr p' => pw_p P p' = pw_p P p | _, _ => False end.
Lemma xcopies_both {W} (P : pworld W) a : xcopies P a -> faithful_copy (both W P) a /\ forall c, w_copy (both W P) a = Ok c -> same_p P a c.
Proof. intros (c & H & H1 & H2 & H3 & H4 & H5). assert (K : w_copy (both W P) a = Ok c /\ same_p P a c).
  { destruct a as [o|p], c as [o'|p']; try contradiction; cbn. - rewrite H. cbn. auto. - destruct H as (-> & ->). cbn. auto. }
  destruct K as (K1 & K2). split; [|intros c' E; rewrite K1 in E; injection E as <-; auto]. exists c. rewrite !learned_both. repeat (split; auto). Qed.
Theorem xcopy_equal W P k l d : plain_setter P -> xmk W P k l = Ok d -> (forall a, In a (om_ops (xm_base d)) -> xcopies P a) ->
  exists d', xcopy W P d = Ok d' /\ om_kind (xm_base d') = k /\ xeq W P d' d = true /\ xm_p d' = xm_p d.
Proof. intros HS E HC0. assert (HC := fun a Ha => xcopies_both P a (HC0 a Ha)). clear HC0. assert (HB := xmk_base _ _ _ _ _ HS E). assert (HA := fun p => xmk_all_p _ _ _ _ _ p HS E). destruct (ocopy_equal (both W P) k (om_ops (xm_base d)) (xm_base d) HB) as (b' & Eb' & Heq & _). { intros; apply HC; auto. }
  destruct (xmk_inv _ _ _ _ _ E) as (b & Eb & Ex & HF & E1 & _). unfold ocopy in Eb'. unfold xcopy. destruct (mapM (w_copy (both W P)) (om_ops (xm_base d))) as [lc|] eqn:El; [|discriminate]. cbn [bind] in *.
  assert (HL : Forall2 (fun a c => w_copy (both W P) a = Ok c) (om_ops (xm_base d)) lc) by (apply mapM_inv; auto).
  assert (HP : forall p, In (inr p) lc -> pw_p P p = xm_p d).
  { clear - HL HC HA. intros p Hp. assert (K : exists a, In a (om_ops (xm_base d)) /\ w_copy (both W P) a = Ok (inr p)). { clear HC HA. induction HL as [|x y l l' H HF IH]; [destruct Hp|]. destruct Hp as [ -> | Hp ]; [exists x; split; [left|]; auto|]. destruct IH as (a & Ha & H'); auto. exists a. split; [right|]; auto. }
    destruct K as (a & Ha & Hc). destruct (HC a Ha) as (_ & K). specialize (K _ Hc). destruct a as [o|p0]; [destruct K|]. cbn in K. rewrite K. apply HA; auto. }
  assert (HQ : forall p, In (inr p) (om_ops (xm_base d)) -> exists p', In (inr p') lc).
  { clear - HL HC. intros p Hp. induction HL as [|x y l l' H HF IH]; [destruct Hp|]. destruct Hp as [ -> | Hp ].
    - destruct (HC (inr p)) as (_ & K); [left; auto|]. specialize (K _ H). destruct y as [|p']; [destruct K|]. exists p'. left; auto.
    - destruct IH as (p' & Hp'); auto. { intros; apply HC; right; auto. } exists p'. right; auto. }
  assert (EK : common_p (known_ps P lc) = Ok (xm_p d)).
  { rewrite common_ok. 2:{ intros u v Hu Hv. apply known_in in Hu, Hv. destruct Hu as (p & Hp & Ep), Hv as (p' & Hp' & Ep'). rewrite HP in Ep, Ep' by auto. congruence. }
    f_equal. destruct (known_ps P lc) as [|n t] eqn:Ek.
    - destruct (xm_p d) as [n|] eqn:Ed; auto. exfalso. destruct (common_inv _ _ Ex) as (_ & K2). assert (HI := K2 n eq_refl). apply known_in in HI. destruct HI as (p & Hp & En).
      assert (K : exists p1, In (inr p1) (om_ops (xm_base d))). { clear - HF Hp. induction HF as [|x y l l' H HF IH]; [destruct Hp|]. destruct Hp as [ -> | Hp ]; [destruct y as [|p1]; [destruct H|exists p1; left; auto]|]. destruct IH as (p1 & H1); auto. exists p1. right; auto. }
      destruct K as (p1 & Hp1). destruct (HQ p1 Hp1) as (p' & Hp'). assert (K : In n (known_ps P lc)) by (apply known_in; exists p'; auto). rewrite Ek in K. destruct K.
    - assert (K : In n (known_ps P lc)) by (rewrite Ek; left; auto). apply known_in in K. destruct K as (p & Hp & En). rewrite HP in En by auto. auto. }
  unfold xmk. rewrite E1 in *. rewrite Eb'. cbn [bind]. match goal with |- context [common_p ?x] => change (common_p x) with (common_p (known_ps P lc)) end. rewrite EK. cbn [bind].
  assert (EG : mapM (give_p P (xm_p d)) lc = Ok lc). { apply AffProofs.mapM_Forall2. clear - HP. induction lc as [|a lc IH]; constructor; [|apply IH; intros; apply HP; right; auto]. destruct a as [o|p]; auto. cbn. destruct (xm_p d) as [n|] eqn:Ed; auto. rewrite HP by (left; auto). auto. }
  match goal with |- context [mapM (give_p P (xm_p d)) ?x] => change (mapM (give_p P (xm_p d)) x) with (mapM (give_p P (xm_p d)) lc) end. rewrite EG. cbn [bind]. eexists. split; [reflexivity|]. cbn. split; [apply (omk_state _ _ _ _ Eb')|]. split; auto.
  unfold xeq. cbn. destruct (omk_state _ _ _ _ Eb') as (Z1 & Z2 & _). rewrite <- Heq. f_equal. rewrite <- Z2. destruct b'; auto. Qed.

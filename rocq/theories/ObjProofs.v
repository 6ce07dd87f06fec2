(* ObjProofs.v -- models made of any operator objects: constructor, rhs, jacobian, galerkin, predict, copy. *)
From Coq Require Import ZArith String.
From Verif Require Import LinAlg MatAlg BlockAlg SolverResid JacProofs MonoEq MonoPredict.
From Verif Require Export ObjEq.
From Verif Require Import SpecAnyObj.
#[local] Open Scope nat_scope.
#[local] Open Scope list_scope.

(* ---- constructor ---- *)
Lemma the_dim_ok x l : (forall y, In y l -> y = x) -> the_dim l = Ok (match l with [] => None | _ => x end).
Proof. intros H. unfold the_dim. destruct l as [|y l]; auto. assert (HN := NoDup_nodup odim_dec (y :: l)).
  assert (HI : forall z, In z (nodup odim_dec (y :: l)) <-> In z (y :: l)) by (intros z; apply nodup_In).
  destruct (nodup odim_dec (y :: l)) as [|a [|b t]].
  - exfalso. apply (HI y). left; auto.
  - f_equal. apply H, HI. left; auto.
  - exfalso. assert (a = x) by (apply H, HI; left; auto). assert (b = x) by (apply H, HI; right; left; auto). subst. inversion HN as [|? ? K _]. apply K. left; auto. Qed.
Lemma the_dim_inv l x : the_dim l = Ok x -> forall y, In y l -> y = x.
Proof. unfold the_dim. assert (HI : forall z, In z (nodup odim_dec l) <-> In z l) by (intros z; apply nodup_In). destruct (nodup odim_dec l) as [|a [|b t]]; try discriminate; intros [= <-] y Hy; apply HI in Hy.
  - destruct Hy. - destruct Hy as [->|[]]; auto. Qed.
Lemma types_nodup (l : list nat) n : n = length l -> negb (length (nodup Nat.eq_dec l) =? n) = false <-> NoDup l.
Proof. intros ->. rewrite Bool.negb_false_iff, Nat.eqb_eq. split.
  - intros H. apply NoDup_incl_NoDup with (l := nodup Nat.eq_dec l); [apply NoDup_nodup|lia|]. intros x. apply nodup_In.
  - intros H. rewrite nodup_fixed_point; auto. Qed.
Lemma pos_gen {A} (p : A -> bool) (l : list A) b i :
  In i (map fst (filter (fun x => p (snd x)) (combine (seq b (length l)) l))) <-> exists j o, i = b + j /\ nth_error l j = Some o /\ p o = true.
Proof. revert b. induction l as [|a l IH]; intros b; cbn [length seq combine filter].
  - cbn. split; [tauto|]. intros (j & o & _ & H & _). destruct j; discriminate.
  - cbn [snd]. destruct (p a) eqn:Ea; cbn [map fst In]; rewrite IH; split.
    + intros [<-|(j & o & -> & H1 & H2)]; [exists 0, a; split; [lia|auto]|exists (S j), o; split; [lia|auto]].
    + intros ([|j] & o & -> & H1 & H2); [left; lia|right; exists j, o; split; [lia|auto]].
    + intros (j & o & -> & H1 & H2). exists (S j), o. split; [lia|auto].
    + intros ([|j] & o & -> & H1 & H2); [cbn in H1; injection H1 as <-; congruence|exists j, o; split; [lia|auto]]. Qed.
Lemma positions_in {A} (p : A -> bool) (l : list A) i : In i (positions p l) <-> exists o, nth_error l i = Some o /\ p o = true.
Proof. unfold positions. rewrite pos_gen. split; [intros (j & o & -> & H); eauto|]. intros (o & H). exists i, o. auto. Qed.

Definition agreeing (W : world) (l : list (obj W)) : Prop :=
  forall a b, In a l -> In b l -> uncal W a = false -> uncal W b = false -> w_dim W a = w_dim W b /\ forall x y, w_in W a = Some x -> w_in W b = Some y -> x = y.
Lemma calib_in W (l : list (obj W)) o : In o (filter (fun o => negb (uncal W o)) l) <-> In o l /\ uncal W o = false.
Proof. rewrite filter_In, Bool.negb_true_iff. tauto. Qed.
Lemma omk_accepts W k l : (exists d, omk W k l = Ok d) <-> l <> [] /\ NoDup (map (w_type W) (filter (uncal W) l)) /\
  forall a b, In a l -> In b l -> uncal W a = false -> uncal W b = false -> w_dim W a = w_dim W b /\ forall x y, w_in W a = Some x -> w_in W b = Some y -> x = y.
Proof. unfold omk. split.
  - intros (d & E). destruct l as [|o0 l0] eqn:El; [discriminate|]. rewrite <- El in *. split; [subst; discriminate|]. replace (length l =? 0) with false in E by (subst; auto).
    destruct (negb _) eqn:ET in E; [discriminate|]. apply types_nodup in ET; [|rewrite map_length; auto]. split; auto.
    destruct (obj_dim W l) as [r|] eqn:Er; [|discriminate]. cbn in E. destruct (obj_in W l) as [m|] eqn:Em; [|discriminate]. intros a b Ha Hb Ca Cb.
    assert (HD := the_dim_inv _ _ Er). split.
    + rewrite (HD (w_dim W a)), (HD (w_dim W b)); auto; apply in_map; apply calib_in; auto.
    + intros x y Hx Hy. unfold obj_in in Em. destruct (existsb (takes_in W) l) eqn:EE.
      * assert (HM := the_dim_inv _ _ Em). rewrite (HM x), (HM y); auto; apply in_flat_map; [exists b; rewrite Hy|exists a; rewrite Hx]; (split; [apply calib_in; auto|left; auto]).
      * exfalso. assert (K : existsb (takes_in W) l = true) by (apply existsb_exists; exists a; unfold takes_in; rewrite Hx; auto). congruence.
  - intros (H1 & H2 & H3). replace (length l =? 0) with false by (destruct l; [congruence|auto]). rewrite (proj2 (types_nodup _ _ (eq_sym (map_length (w_type W) _))) H2).
    unfold obj_dim, obj_in. assert (HC : forall o, In o (filter (fun o => negb (uncal W o)) l) <-> In o l /\ uncal W o = false) by (intros; apply calib_in).
    revert HC. generalize (filter (fun o => negb (uncal W o)) l). intros c HC.
    assert (HR : exists r, the_dim (map (w_dim W) c) = Ok r).
    { destruct c as [|o0 c0]; [cbn; eauto|]. rewrite (the_dim_ok (w_dim W o0)); [eauto|]. intros y Hy. apply in_map_iff in Hy. destruct Hy as (o & <- & Ho). apply HC in Ho.
      assert (H0 : In o0 (o0 :: c0)) by (left; auto). apply HC in H0. apply H3; tauto. }
    destruct HR as (r & ->). cbn [bind]. destruct (existsb (takes_in W) l); [|cbn; eauto].
    assert (HF : forall x y, In x (flat_map (fun o => match w_in W o with Some m => [m] | None => [] end) c) -> In y (flat_map (fun o => match w_in W o with Some m => [m] | None => [] end) c) -> y = x).
    { intros x y Hx Hy. apply in_flat_map in Hx, Hy. destruct Hx as (o & Ho & Hx), Hy as (o' & Ho' & Hy). apply HC in Ho, Ho'.
      destruct (w_in W o) as [m1|] eqn:E1; [|destruct Hx]. destruct Hx as [ -> | [] ]. destruct (w_in W o') as [m2|] eqn:E2; [|destruct Hy]. destruct Hy as [ -> | [] ].
      destruct (H3 o' o) as (_ & H4); try tauto. eapply H4; eauto. }
    revert HF. generalize (flat_map (fun o => match w_in W o with Some m => [m] | None => [] end) c). intros [|x t] HF; [cbn; eauto|].
    rewrite (the_dim_ok x); [cbn; eauto|]. intros y Hy. apply HF; auto. left; auto. Qed.
Lemma omk_state W k l d : omk W k l = Ok d -> om_kind d = k /\ om_ops d = l /\ om_hasin d = existsb (takes_in W) l /\
  (forall i, In i (om_infer d) <-> exists o, nth_error l i = Some o /\ uncal W o = true) /\ (forall i, In i (om_known d) <-> exists o, nth_error l i = Some o /\ uncal W o = false) /\
  (forall o, In o l -> uncal W o = false -> om_r d = w_dim W o /\ forall x, w_in W o = Some x -> om_m d = x) /\ (existsb (takes_in W) l = false -> om_m d = Some 0).
Proof. unfold omk. destruct (length l =? 0); [discriminate|]. destruct (negb _); [discriminate|]. destruct (obj_dim W l) as [r|] eqn:Er; [|discriminate]. cbn [bind]. destruct (obj_in W l) as [m|] eqn:Em; [|discriminate]. cbn [bind].
  intros [= <-]. cbn. repeat (split; auto). { apply positions_in. } { apply positions_in. }
  { intros H. apply positions_in in H. destruct H as (o & H1 & H2). exists o. split; auto. apply Bool.negb_true_iff; auto. }
  { intros (o & H1 & H2). apply positions_in. exists o. split; auto. rewrite H2. auto. }
  { symmetry. apply (the_dim_inv _ _ Er). apply in_map. apply calib_in. auto. }
  { intros x Hx. symmetry. unfold obj_in in Em. replace (existsb (takes_in W) l) with true in Em. - apply (the_dim_inv _ _ Em). apply in_flat_map. exists o. split; [apply calib_in; auto|rewrite Hx; left; auto].
    - symmetry. apply existsb_exists. exists o. split; auto. unfold takes_in. rewrite Hx. auto. }
  { intros E. unfold obj_in in Em. rewrite E in Em. congruence. } Qed.

(* ---- models of operators that are fs ---- *)
Lemma F2_in {A B} (P : A -> B -> Prop) l l' : Forall2 P l l' -> forall a, In a l -> exists b, P a b.
Proof. intros HF. induction HF as [|x y l l' H HF IH]; intros a Ha; [destruct Ha|]. destruct Ha as [ -> | Ha ]; eauto. Qed.
Section Model.
  Variables (W : world) (r m : nat) (d : omodel W) (fs : list fn).
  Hypothesis (HM : model_of W r m d fs).
  Lemma mo_F2 : Forall2 (behaves W r m) (om_ops d) fs.
  Proof. destruct HM as (k & l & E & HF). destruct (omk_state W k l d E) as (_ & -> & _). auto. Qed.
  Lemma mo_ne : om_ops d <> [].
  Proof. destruct HM as (k & l & E & HF). destruct (omk_state W k l d E) as (_ & -> & _). destruct l; [discriminate|congruence]. Qed.
  Lemma mo_hasin : om_hasin d = existsb (takes_in W) (om_ops d).
  Proof. destruct HM as (k & l & E & HF). destruct (omk_state W k l d E) as (_ & -> & -> & _). auto. Qed.
  Lemma bh_of o : In o (om_ops d) -> exists f, behaves W r m o f.
  Proof. apply (F2_in _ _ _ mo_F2). Qed.
  Lemma mo_dims : om_r d = Some r /\ om_m d = Some (if om_hasin d then m else 0) /\ otrained W d = Ok tt.
  Proof. assert (Hne := mo_ne). assert (Hh := mo_hasin). assert (HB := bh_of). destruct HM as (k & l & E & HF). destruct (omk_state W k l d E) as (_ & E1 & E2 & _ & _ & E3 & E4). rewrite E1 in *.
    destruct l as [|o0 l0]; [congruence|]. destruct (HB o0) as (f0 & H0); [left; auto|]. destruct (E3 o0) as (Er & _); [left; auto|apply H0|]. rewrite (bh_dim _ _ _ _ _ H0) in Er.
    assert (Em : om_m d = Some (if om_hasin d then m else 0)). { rewrite E2. destruct (existsb (takes_in W) (o0 :: l0)) eqn:EE; [|auto]. apply existsb_exists in EE. destruct EE as (o & Ho & Ht). unfold takes_in in Ht.
      destruct (w_in W o) as [x|] eqn:Ex; [|discriminate]. destruct (HB o Ho) as (f & Hf). destruct (E3 o Ho (bh_cal _ _ _ _ _ Hf)) as (_ & K). rewrite (K x Ex). apply (bh_in _ _ _ _ _ Hf _ Ex). }
    split; auto. split; auto. unfold otrained. rewrite Er, Em. replace (om_hasin d && false) with false by (destruct (om_hasin d); auto). rewrite E1.
    replace (existsb (uncal W) (o0 :: l0)) with false; auto. symmetry. apply Bool.not_true_is_false. intros K. apply existsb_exists in K. destruct K as (o & Ho & Hu). destruct (HB o Ho) as (f & Hf). rewrite (bh_cal _ _ _ _ _ Hf) in Hu. discriminate. Qed.
End Model.

Lemma osum_ok W r m l fs q u ou : Forall2 (behaves W r m) l fs -> is_vec r q -> is_vec m u -> (existsb (takes_in W) l = true -> ou = Some (V u)) ->
  forall acc, is_vec r acc -> exists y, osum W l (V q) ou (V acc) = Ok (V y) /\ is_vec r y /\ forall i, i < r -> vget y i = (vget acc i + total fs q u i)%R.
Proof. intros HF Hq Hu. induction HF as [|o f l fs HB HF IH]; intros Hin acc Ha.
  - exists acc. split; auto. split; auto. intros i Hi. change (total [] q u i) with 0%R. ring.
  - cbn [osum]. destruct (bh_app _ _ _ _ _ HB q u ou Hq) as (y & Ey & Hy & Hv). { split; auto. intros Ht. apply Hin. cbn. rewrite Ht. auto. }
    rewrite Ey. cbn [bind iadd]. unfold is_vec in Hy, Ha. rewrite Hy, Ha, Nat.eqb_refl. cbn [bind].
    destruct IH with (acc := vadd acc y) as (w & E2 & Hw & Hv2). { intros Ht. apply Hin. cbn. rewrite Ht. apply Bool.orb_true_r. } { apply is_vec_vadd; auto. }
    exists w. split; auto. split; auto. intros i Hi. rewrite Hv2 by auto. rewrite (vget_vadd r) by auto. rewrite Hv by auto. unfold total. cbn [map]. rewrite lsum_cons. ring. Qed.
Theorem orhs_total W r m d fs q u ou : model_of W r m d fs -> is_vec r q -> model_input d m u V ou ->
  exists y, orhs W d (V q) ou = Ok (V y) /\ is_vec r y /\ forall i, i < r -> vget y i = total fs q u i.
Proof. intros HM Hq (Hu & Hin). unfold orhs. cbn [emap]. destruct (osum_ok W r m (om_ops d) fs q u ou (mo_F2 _ _ _ _ _ HM) Hq Hu) with (acc := map (fun _ => 0%R) q) as (y & E & Hy & Hv).
  { intros Ht. apply Hin. rewrite (mo_hasin _ _ _ _ _ HM). auto. } { unfold is_vec. rewrite map_length. auto. }
  exists y. split; auto. split; auto. intros i Hi. rewrite Hv by auto. unfold vget at 1. rewrite (nth_map_in _ _ _ _ 0%R) by (unfold is_vec in Hq; lia). ring. Qed.

Lemma ojsum_ok W r m l fs q u ou : 0 < r -> Forall2 (fun o f => behaves W r m o f /\ differentiates W r m o f) l fs -> is_vec r q -> is_vec m u -> (existsb (takes_in W) l = true -> ou = Some u) ->
  forall acc, is_mat r r acc -> exists J, ojsum W l q ou acc = Ok J /\ is_mat r r J /\
    forall dir i, is_vec r dir -> i < r -> derivable_pt_lim (fun t => total fs (along q dir t) u i) 0 (bsum r (fun j => ((mget J i j - mget acc i j) * vget dir j)%R)).
Proof. intros Hr HF Hq Hu. induction HF as [|o f l fs (HB & HD) HF IH]; intros Hin acc Ha.
  - exists acc. split; auto. split; auto. intros dir i Hd Hi. rewrite bsum_0 by (intros; ring). apply derivable_pt_lim_const.
  - cbn [ojsum]. destruct (HD q u ou Hq) as (J & EJ & HJ & HV). { split; auto. intros Ht. apply Hin. cbn. rewrite Ht. auto. }
    assert (Hin' : existsb (takes_in W) l = true -> ou = Some u) by (intros Ht; apply Hin; cbn; rewrite Ht; apply Bool.orb_true_r).
    assert (HS : forall q, total (f :: fs) q u = fun i => (f q u i + total fs q u i)%R) by (intros q0; unfold total; cbn [map]; reflexivity).
    rewrite EJ. cbn [bind]. destruct J as [|A].
    + destruct (IH Hin' acc Ha) as (K & EK & HK & HVK). exists K. split; auto. split; auto. intros dir i Hd Hi.
      assert (P := derivable_pt_lim_plus _ _ _ _ _ (HV dir i Hd Hi) (HVK dir i Hd Hi)). rewrite (bsum_0 r (fun j => (jget JZero i j * vget dir j)%R)) in P by (intros; cbn; ring). rewrite Rplus_0_l in P. exact P.
    + assert (HA := HJ A eq_refl). rewrite (is_mat_nrows _ _ _ Ha), (ncols_is_mat _ _ _ Ha Hr). rewrite (shape_is_true r r) by auto.
      destruct (IH Hin' (madd acc A)) as (K & EK & HK & HVK). { apply is_mat_madd; auto. } exists K. split; auto. split; auto. intros dir i Hd Hi.
      assert (P := derivable_pt_lim_plus _ _ _ _ _ (HV dir i Hd Hi) (HVK dir i Hd Hi)). rewrite <- bsum_plus in P.
      rewrite (bsum_ext r _ (fun j => ((mget K i j - mget acc i j) * vget dir j)%R)) in P; [exact P|]. intros j Hj. cbn [jget]. rewrite (mget_madd r r) by auto. ring. Qed.
Theorem ojacobian_derivative W r m d fs q u ou oa : 0 < r -> model_of W r m d fs -> Forall2 (differentiates W r m) (om_ops d) fs -> is_vec r q -> model_input d m u (fun v => v) ou -> model_input d m u V oa ->
  exists J, ojacobian W d q ou = Ok J /\ is_mat r r J /\ forall dir, is_vec r dir -> exists g : R -> vec,
    (forall t, orhs W d (V (along q dir t)) oa = Ok (V (g t))) /\ forall i, i < r -> derivable_pt_lim (fun t => vget (g t) i) 0 (vget (matvec J dir) i).
Proof. intros Hr HM HD Hq (Hu & Hin) HA. unfold ojacobian. destruct (mo_dims _ _ _ _ _ HM) as (-> & _ & _).
  destruct (ojsum_ok W r m (om_ops d) fs q u ou Hr) with (acc := mzeros r r) as (J & EJ & HJ & HV); auto.
  { assert (HF := mo_F2 _ _ _ _ _ HM). clear - HF HD. induction HF as [|o f l fs' H HF IH]; auto. inversion HD; subst. constructor; auto. }
  { intros Ht. apply Hin. rewrite (mo_hasin _ _ _ _ _ HM). auto. } { apply is_mat_mzeros. }
  exists J. split; auto. split; auto. intros dir Hd.
  assert (HL : forall t, is_vec r (along q dir t)) by (intros t; apply is_vec_along; auto).
  exists (fun t => match orhs W d (V (along q dir t)) oa with Ok (V y) => y | _ => [] end).
  assert (HG : forall t, exists y, orhs W d (V (along q dir t)) oa = Ok (V y) /\ is_vec r y /\ forall i, i < r -> vget y i = total fs (along q dir t) u i) by (intros t; apply (orhs_total W r m); auto).
  split. { intros t. destruct (HG t) as (y & -> & _). auto. }
  intros i Hi. rewrite (vget_matvec r r) by auto. assert (P := HV dir i Hd Hi).
  rewrite (bsum_ext r _ (fun j => (mget J i j * vget dir j)%R)) in P by (intros j Hj; rewrite mget_mzeros; ring).
  intros eps He. destruct (P eps He) as (del & Hdel). exists del. intros h Hh0 Hh. specialize (Hdel h Hh0 Hh).
  destruct (HG (0 + h)%R) as (y1 & -> & _ & ->); auto. destruct (HG 0%R) as (y2 & -> & _ & ->); auto. Qed.

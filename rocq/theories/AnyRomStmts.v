(* AnyRomStmts.v -- the theorems about ROMs made of any parts, stated outside of sections. *)
From Coq Require Import ZArith.
From Verif Require Import AnyRomProofs AnyRomFit AnyRomLib.
From Verif Require Import SpecAnyRom.
#[local] Open Scope nat_scope.
#[local] Open Scope list_scope.

Theorem rom_encode_any T B A (D : mclass A) (r : arom T B D) a q :
  aencode1 T B D r a = Ok q <-> exists l t, via (a_lift r) lf_lift a l /\ via (a_tf r) (ct_transform T) l t /\ via (a_basis r) (cb_compress B) t q.
Proof. first [apply any_encode | eapply any_encode; eauto]. Qed.
Theorem rom_encode_lhs_any T B A (D : mclass A) (r : arom T B D) a d q z :
  aencode T B D r a (Some d) = Ok (q, z) <-> exists z' dl dt, z = Some z' /\ aencode1 T B D r a = Ok q /\
    (if cm_cont D then via (a_lift r) (fun f => lf_ddts f a) d dl else via (a_lift r) lf_lift d dl) /\
    via (a_tf r) (if cm_cont D then ct_ddts T else ct_transform T) dl dt /\ via (a_basis r) (cb_compress B) dt z'.
Proof. first [apply any_encode_lhs | eapply any_encode_lhs; eauto]. Qed.
Theorem rom_decode_any T B A (D : mclass A) (r : arom T B D) q locs x :
  adecode T B D r q locs = Ok x <-> exists t l, via (a_basis r) (fun b y => cb_decompress B b y locs) q t /\
    via (a_tf r) (fun t z => ct_inverse T t z locs) t l /\ via (a_lift r) lf_unlift l x.
Proof. first [apply any_decode | eapply any_decode; eauto]. Qed.
Theorem rom_decode_encode_any T B A (D : mclass A) (r : arom T B D) a q :
  undoes (a_lift r) lf_lift lf_unlift -> undoes (a_tf r) (ct_transform T) (fun t z => ct_inverse T t z None) ->
    undoes (a_basis r) (cb_compress B) (fun b y => cb_decompress B b y None) -> aencode1 T B D r a = Ok q -> adecode T B D r q None = Ok a /\ aproject T B D r a = Ok a.
Proof. first [apply any_decode_encode | eapply any_decode_encode; eauto]. Qed.
Theorem rom_encode_decode_any T B A (D : mclass A) (r : arom T B D) q x :
  undoes (a_lift r) lf_unlift lf_lift -> undoes (a_tf r) (fun t z => ct_inverse T t z None) (ct_transform T) ->
    undoes (a_basis r) (fun b y => cb_decompress B b y None) (cb_compress B) -> adecode T B D r q None = Ok x -> aencode1 T B D r x = Ok q.
Proof. first [apply any_encode_decode | eapply any_encode_decode; eauto]. Qed.
Theorem rom_project_any T B A (D : mclass A) (r : arom T B D) a p :
  undoes (a_lift r) lf_unlift lf_lift -> undoes (a_tf r) (fun t z => ct_inverse T t z None) (ct_transform T) ->
    undoes (a_basis r) (fun b y => cb_decompress B b y None) (cb_compress B) -> aproject T B D r a = Ok p -> aproject T B D r p = Ok p /\ aencode1 T B D r p = aencode1 T B D r a.
Proof. first [apply any_project | eapply any_project; eauto]. Qed.
Theorem rom_predict_any T B A (D : mclass A) (r : arom T B D) args q0 Y :
  apredict T B D r args q0 = Ok Y <-> exists e Z, aencode1 T B D r q0 = Ok e /\ cm_predict D (a_model r) args e = Ok Z /\ adecode T B D r Z None = Ok Y.
Proof. first [apply any_predict | eapply any_predict; eauto]. Qed.
Theorem rom_predict_starts_any T B A (D : mclass A) (r : arom T B D) n p args q0 Y :
  columnwise p n (fun q => adecode T B D r q None) ->
    (forall e Z, aencode1 T B D r (V q0) = Ok (V e) -> cm_predict D (a_model r) args (V e) = Ok Z -> exists k, 0 < k /\ shaped p k Z /\ col p Z 0 = e) ->
    (forall e, aencode1 T B D r (V q0) = Ok e -> exists v, e = V v) ->
    apredict T B D r args (V q0) = Ok Y -> aproject T B D r (V q0) = Ok (V (col n Y 0)).
Proof. first [apply any_predict_starts | eapply any_predict_starts; eauto]. Qed.
Theorem rom_fit_any T B A (D : mclass A) (f : mobj D -> arr -> arr -> option arr -> mobj D * res unit) (r : arom T B D) X ft fb (r' : arom T B D) Qs Zs Us :
  trajectories_of X Qs Zs Us -> same_length Qs Zs -> same_length Qs Us -> arom_fit T B D f r X ft fb = (r', Ok tt) ->
    afitted ft fb Qs r r' /\ exists es ds us Q L U, acontributions r' Qs Zs Us es ds us /\ hstack_arr es = Ok Q /\ hstack_arr ds = Ok L /\ hstack_opt us = Ok U /\ f (a_model r) Q L U = (a_model r', Ok tt).
Proof. first [apply any_fit | eapply any_fit; eauto]. Qed.
Theorem rom_fit_raises_any T B A (D : mclass A) (f : mobj D -> arr -> arr -> option arr -> mobj D * res unit) (r : arom T B D) X ft fb (r' : arom T B D) Qs Zs Us e :
  trajectories_of X Qs Zs Us -> same_length Qs Zs -> same_length Qs Us -> arom_fit T B D f r X ft fb = (r', Err e) ->
    left_behind (stacked D f) ft fb Qs Zs Us e r r'.
Proof. first [apply any_fit_raises | eapply any_fit_raises; eauto]. Qed.
Theorem rom_fit_refuses_any T B A (D : mclass A) (f : mobj D -> arr -> arr -> option arr -> mobj D * res unit) (r : arom T B D) X ft fb :
  (cm_cont D = true /\ fst (train_args X) = false /\ a_ddt r = None) \/ (cm_hasin D (a_model r) = true /\ snd (train_args X) = false) -> arom_fit T B D f r X ft fb = (r, Err ValueError).
Proof. first [apply any_fit_refuses | eapply any_fit_refuses; eauto]. Qed.
Theorem rom_pfit_any T B A (D : mclass A) (call : fit_call D) (r : arom T B D) Qs Zs Us ft fb (r' : arom T B D) :
  same_length Qs Zs -> same_length Qs Us -> aprom_fit T B D call r Qs Zs Us ft fb = (r', Ok tt) ->
    afitted ft fb Qs r r' /\ exists es ds us, acontributions r' Qs Zs Us es ds us /\ call (a_model r) es ds us = (a_model r', Ok tt).
Proof. first [apply any_pfit | eapply any_pfit; eauto]. Qed.
Theorem rom_pfit_raises_any T B A (D : mclass A) (call : fit_call D) (r : arom T B D) Qs Zs Us ft fb (r' : arom T B D) e :
  same_length Qs Zs -> same_length Qs Us -> aprom_fit T B D call r Qs Zs Us ft fb = (r', Err e) -> left_behind call ft fb Qs Zs Us e r r'.
Proof. first [apply any_pfit_raises | eapply any_pfit_raises; eauto]. Qed.
Theorem rom_fit_no_refit_any T B A (D : mclass A) (f : mobj D -> arr -> arr -> option arr -> mobj D * res unit) (r : arom T B D) X (r' : arom T B D) Qs Zs Us e :
  trajectories_of X Qs Zs Us -> same_length Qs Zs -> same_length Qs Us -> arom_fit T B D f r X false false = (r', Err e) ->
    a_lift r' = a_lift r /\ a_tf r' = a_tf r /\ a_basis r' = a_basis r /\ a_ddt r' = a_ddt r /\ ((forall Q L U d y, f (a_model r) Q L U = (d, Err y) -> d = a_model r) -> r' = r).
Proof. first [apply any_fit_no_refit | eapply any_fit_no_refit; eauto]. Qed.
(* encode(states, lhs, fit_transformer, fit_basis) *)
Theorem rom_encode_fit_any T B A (D : mclass A) (r : arom T B D) ft fb a lhs (r' : arom T B D) x :
  (forall t y t' z, ct_fit_transform T t y = (t', Ok z) -> ct_fit T t y = (t', Ok tt) /\ ct_transform T t' y = Ok z) -> aencode_fit T B D r ft fb a lhs = (r', Ok x) ->
  aencode T B D r' a lhs = Ok x /\ a_lift r' = a_lift r /\ a_ddt r' = a_ddt r /\ a_model r' = a_model r /\
  exists l m, via (a_lift r) lf_lift a l /\ via (a_tf r') (ct_transform T) l m /\
    match a_tf r, a_tf r' with None, None => True | Some t, Some t' => if ft then ct_fit T t l = (t', Ok tt) else t' = t | _, _ => False end /\
    match a_basis r, a_basis r' with None, None => True | Some b, Some b' => if fb then cb_fit B b m = (b', Ok tt) else b' = b | _, _ => False end.
Proof.
  intros HT. unfold aencode, aencode_fit. destruct (a_lifting T B D r a lhs) as [[a1 z1]|] eqn:EL; [|discriminate].
  assert (HL : forall s : arom T B D, a_lift s = a_lift r -> a_lifting T B D s a lhs = Ok (a1, z1)) by (intros s Hs; unfold a_lifting in *; rewrite Hs; exact EL).
  assert (V1 : via (a_lift r) lf_lift a a1). { unfold a_lifting in EL. destruct (a_lift r) as [f|]; cbn; [|congruence]. destruct (opt_map _ lhs); [|discriminate]. cbn in EL. destruct (lf_lift f a); [cbn in EL; congruence|discriminate]. }
  destruct r as [lf tf bs dd md]. cbn [a_lift] in *. unfold sbind. intros E.
  assert (K2 : forall t' tf1 b1 z2, tf1 = Some t' -> ct_transform T t' a1 = Ok b1 -> opt_map (if cm_cont D then ct_ddts T t' else ct_transform T t') z1 = Ok z2 -> forall bs', 
     a_transforming T B D {| a_lift := lf; a_tf := tf1; a_basis := bs'; a_ddt := dd; a_model := md |} false a1 z1 = ({| a_lift := lf; a_tf := tf1; a_basis := bs'; a_ddt := dd; a_model := md |}, Ok (b1, z2))).
  { intros t' tf1 b1 z2 -> H1 H2 bs'. unfold a_transforming. cbn [a_tf]. rewrite H1. cbn [bind]. rewrite H2. reflexivity. }
  assert (KT : exists tf1 b1 z2, fst (a_transforming T B D {| a_lift := lf; a_tf := tf; a_basis := bs; a_ddt := dd; a_model := md |} ft a1 z1) = {| a_lift := lf; a_tf := tf1; a_basis := bs; a_ddt := dd; a_model := md |} /\
     snd (a_transforming T B D {| a_lift := lf; a_tf := tf; a_basis := bs; a_ddt := dd; a_model := md |} ft a1 z1) = Ok (b1, z2) /\ via tf1 (ct_transform T) a1 b1 /\
     match tf, tf1 with None, None => True | Some t, Some t' => if ft then ct_fit T t a1 = (t', Ok tt) else t' = t | _, _ => False end /\
     forall bs', a_transforming T B D {| a_lift := lf; a_tf := tf1; a_basis := bs'; a_ddt := dd; a_model := md |} false a1 z1 = ({| a_lift := lf; a_tf := tf1; a_basis := bs'; a_ddt := dd; a_model := md |}, Ok (b1, z2))).
  { destruct (snd (a_transforming T B D {| a_lift := lf; a_tf := tf; a_basis := bs; a_ddt := dd; a_model := md |} ft a1 z1)) as [[b1 z2]|] eqn:ES; [|discriminate]. clear E.
    unfold a_transforming in ES |- * at 1. cbn [a_tf] in *. destruct tf as [t|].
    - destruct ft.
      + destruct (ct_fit_transform T t a1) as [t' [y|]] eqn:EF; [|discriminate]. cbn [snd bind] in ES. destruct (opt_map _ z1) as [z3|] eqn:EZ; [|discriminate]. cbn [bind] in ES. injection ES as <- <-.
        destruct (HT _ _ _ _ EF) as [F1 F2]. exists (Some t'), y, z3. split; [reflexivity|]. split; [reflexivity|]. split; [exact F2|]. split; [exact F1|]. intros bs'. apply (K2 t'); auto.
      + cbn [snd] in ES. destruct (ct_transform T t a1) as [y|] eqn:F2; [|discriminate]. cbn [snd bind] in ES. destruct (opt_map _ z1) as [z3|] eqn:EZ; [|discriminate]. cbn [bind] in ES. injection ES as <- <-.
        exists (Some t), y, z3. split; [reflexivity|]. split; [reflexivity|]. split; [exact F2|]. split; [reflexivity|]. intros bs'. apply (K2 t); auto.
    - injection ES as <- <-. exists None, a1, z1. repeat split. }
  destruct KT as (tf1 & b1 & z2 & F1 & F2 & V2 & HTf & HA). rewrite F1, F2 in E. unfold a_compressing in E. cbn [a_basis fst snd] in E.
  assert (KB : exists bs1, r' = {| a_lift := lf; a_tf := tf1; a_basis := bs1; a_ddt := dd; a_model := md |} /\ snd (a_compressing T B D r' false b1 z2) = Ok x /\
     match bs, bs1 with None, None => True | Some b, Some b' => if fb then cb_fit B b b1 = (b', Ok tt) else b' = b | _, _ => False end).
  { destruct bs as [b|].
    - destruct fb.
      + destruct (cb_fit B b b1) as [b' [[]|]] eqn:EB; [|discriminate]. cbn [bind] in E. injection E as <- E. exists (Some b'). split; [reflexivity|]. split; [exact E|reflexivity].
      + injection E as <- E. exists (Some b). split; [reflexivity|]. split; [exact E|reflexivity].
    - injection E as <- E. exists None. split; [reflexivity|]. split; [cbn; f_equal; exact E|exact I]. }
  destruct KB as (bs1 & -> & HC & HB). rewrite HL by reflexivity. rewrite HA. cbn [snd fst]. split; [exact HC|]. do 3 (split; [reflexivity|]). exists a1, b1. auto. Qed.
(* the constructor keeps the parts, but no estimator for models that are not time-continuous *)
Lemma mk_arom_parts T B A (D : mclass A) (d : mobj D) lf (t : option (tobj T)) (b : option (bobj B)) est : let r : arom T B D := mk_arom T B D d lf t b est in
  a_model r = d /\ a_lift r = lf /\ a_tf r = t /\ a_basis r = b /\ (cm_cont D = true -> a_ddt r = est) /\ (cm_cont D = false -> a_ddt r = None).
Proof. cbn. repeat split; intros ->; reflexivity. Qed.

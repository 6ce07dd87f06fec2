(* GenClasses.v -- the classes of the library and PolynomialOperator do what the model expects of a class. *)
From Coq Require Import ZArith String.
From Verif Require Import LinAlg MatAlg BlockAlg TupleFinal OpsProofs AffProofs PolyOpProofs.
From Verif Require Export GenMain.
#[local] Open Scope nat_scope.
#[local] Open Scope list_scope.

Lemma lib_width r m c : fst (lib_feature r m c) = opdim (proto c) r m.
Proof. destruct c; cbn; auto. rewrite operator_dimension_desc, monomials_desc. reflexivity. Qed.
Lemma lib_phi r m c q u : is_vec r q -> is_vec m u -> snd (lib_feature r m c) q u = datavec (proto c) q u.
Proof. intros Hq Hu. destruct c; cbn; auto.
  - rewrite ckron_of_mono, Hq. reflexivity.
  - unfold kronv, vscale. rewrite flat_map_concat_map. reflexivity. Qed.
Lemma lib_term r m c e q u i : 0 < r -> wf_op r m e -> cls_of e = c -> is_vec r q -> is_vec m u ->
  vget (matvec (entries2 e) (datavec e q u)) i = term (lib_feature r m c) (entries2 e) q u i.
Proof. intros Hr Hw Hc Hq Hu. unfold term. rewrite lib_width, lib_phi by auto. rewrite <- Hc, opdim_proto.
  rewrite (vget_matvec r (opdim e r m)); [|apply entries2_shape; auto|apply is_vec_datavec; auto].
  apply bsum_ext. intros b Hb. rewrite (datavec_cls (proto (cls_of e)) e) by apply cls_proto. reflexivity. Qed.

Lemma lib_lawful r m c : 0 < r -> 0 < m -> lawful r m (lib_cls c) (lib_feature r m c).
Proof. intros Hr Hm. assert (HS : forall E, is_mat r (fst (lib_feature r m c)) E -> exists e, set_2d c E = Ok e /\ wf_op r m e /\ cls_of e = c /\ entries2 e = E).
  { intros E HE. rewrite lib_width in HE. apply set_2d_ok; auto. }
  constructor.
  - rewrite lib_width. apply op_dim_pos; auto.
  - intros mm Hmm. cbn [oc_dim lib_cls oc_inputs] in *. rewrite lib_width. unfold width. destruct (has_inputs c) eqn:EH.
    + rewrite Hmm by auto. reflexivity.
    + destruct mm as [mm|]; f_equal; destruct c; cbn in *; auto; discriminate.
  - intros k Q U oU Hk HQ HU Hin. exists (datamat (proto c) Q U). rewrite lib_width. split; [|split; [apply datamat_shape; auto|]].
    + cbn [oc_block lib_cls]. rewrite <- (datablock_ok r m k) by auto. unfold op_datablock. cbn [mo_cls]. unfold takes_input. cbn [mo_cls].
      cbn [oc_inputs lib_cls] in Hin. destruct (has_inputs c) eqn:EH.
      * rewrite Hin by auto. reflexivity.
      * destruct oU; apply datablock_noinput; auto.
    + intros j b Hj Hb. rewrite lib_phi by apply is_vec_colv. rewrite <- (datamat_col r m k) by auto. rewrite vget_colv; auto.
  - intros E HE. destruct (HS E HE) as (e & E1 & _ & _ & E2). cbn [oc_set lib_cls]. rewrite E1. cbn [bind]. congruence.
  - intros E Hin HE. destruct (HS E HE) as (e & E1 & Hw & Hc & E2). cbn [oc_indim lib_cls oc_inputs] in *. rewrite E1. destruct e; cbn in Hc; subst c; try discriminate; cbn in Hw |- *.
    + apply (ncols_is_mat r); auto.
    + rewrite (ncols_is_mat r (r * m) _ Hw Hr), (is_mat_nrows _ _ _ Hw), Nat.mul_comm. apply Nat.div_mul. lia.
  - intros E q u ou HE Hq Hu Hin. destruct (HS E HE) as (e & E1 & Hw & Hc & E2). cbn [oc_apply lib_cls oc_inputs] in *. rewrite E1.
    destruct (op_apply_vec r m {| mo_cls := c; mo_ent := Some e |} q u ou Hr Hm) as (y & Ey & Hy & Hv); auto. { exists e. auto. }
    exists y. split; auto. split; auto. intros i Hi. rewrite Hv. unfold opval. cbn [mo_ent]. rewrite (lib_term r m c) by auto. rewrite E2. reflexivity.
  - intros k E Q U oU Hk HE HQ HU Hin. destruct (HS E HE) as (e & E1 & Hw & Hc & E2). cbn [oc_apply lib_cls oc_inputs] in *. rewrite E1.
    destruct (op_apply_mat r m k {| mo_cls := c; mo_ent := Some e |} Q U oU Hr Hm) as (Y & EY & HY & Hv); auto. { exists e. auto. }
    exists Y. split; auto. split; auto. intros i j Hi Hj. rewrite Hv by auto. unfold opval. cbn [mo_ent]. rewrite (lib_term r m c) by (auto; apply is_vec_colv). rewrite E2. reflexivity. Qed.

Lemma desc_pos p : forall r, 0 < r -> 0 < length (desc p r).
Proof. induction p as [|p IH]; intros r Hr; [cbn; lia|]. destruct r as [|r]; [lia|]. cbn [desc seq flat_map]. rewrite app_length, map_length.
  specialize (IH 1 ltac:(lia)). lia. Qed.
Lemma poly_lawful r m p : 0 < r -> 0 < m -> lawful r m (poly_cls p) (poly_feature r p).
Proof. intros Hr Hm. assert (EW : length (monomials p r) = pdim p r) by (symmetry; apply pdim_monomials; auto).
  assert (HP : 0 < pdim p r).
  { rewrite <- EW, monomials_desc. apply desc_pos; auto. }
  constructor; cbn [poly_feature fst snd]; try rewrite EW.
  - auto.
  - intros mm _. reflexivity.
  - intros k Q U oU Hk HQ HU _. destruct (pdatablock_ok p r k Q Hr HQ) as (D & ED & HD & Hv). exists D. split; auto. split; auto.
    intros j b Hj Hb. rewrite <- Hv by auto. rewrite vget_colv; auto.
  - reflexivity.
  - intros E Hx. discriminate.
  - intros E q u ou HE Hq Hu _. eexists. split; [apply (papply_vec p r); auto|].
    assert (HV : is_vec (pdim p r) (map (mono q) (monomials p r))) by (unfold is_vec; rewrite map_length; auto).
    split; [apply (is_vec_matvec r (pdim p r)); auto|]. intros i Hi. rewrite (vget_matvec r (pdim p r)) by auto. unfold term, poly_feature. cbn [fst snd]. rewrite EW. reflexivity.
  - intros k E Q U oU Hk HE HQ HU _. destruct (papply_mat p r k E Q Hr HE HQ) as (D & ED & EP). destruct (pdatablock_ok p r k Q Hr HQ) as (D' & ED' & HD & Hv).
    rewrite ED in ED'. injection ED' as <-. eexists. split; [exact EP|]. split; [apply (is_mat_matmul r (pdim p r) k); auto|].
    intros i j Hi Hj. rewrite (mget_matmul r (pdim p r) k) by auto. unfold term, poly_feature. cbn [fst snd]. rewrite EW. apply bsum_ext. intros b Hb. f_equal.
    rewrite <- Hv by auto. rewrite vget_colv; auto. Qed.

(* the dedicated class of order p has the same features as PolynomialOperator of order p *)
Lemma lawful_ext r m c f w phi : lawful r m c f -> w = fst f -> (forall q u, is_vec r q -> is_vec m u -> phi q u = snd f q u) -> lawful r m c (w, phi).
Proof. intros [L1 L2 L3 L4 L5 L6 L7] -> HE. assert (HT : forall E q u i, is_vec r q -> is_vec m u -> term (fst f, phi) E q u i = term f E q u i).
  { intros. unfold term. cbn [fst snd]. apply bsum_ext. intros. rewrite HE by auto. reflexivity. }
  constructor; cbn [fst snd]; auto.
  - intros k Q U oU Hk HQ HU Hin. destruct (L3 k Q U oU Hk HQ HU Hin) as (B & E & HB & Hv). exists B. split; auto. split; auto. intros j b Hj Hb.
    rewrite HE by apply is_vec_colv. apply Hv; auto.
  - intros E q u ou HE' Hq Hu Hin. destruct (L6 E q u ou HE' Hq Hu Hin) as (y & E1 & Hy & Hv). exists y. split; auto. split; auto. intros i Hi. rewrite HT by auto. auto.
  - intros k E Q U oU Hk HE' HQ HU Hin. destruct (L7 k E Q U oU Hk HE' HQ HU Hin) as (Y & E1 & HY & Hv). exists Y. split; auto. split; auto. intros i j Hi Hj.
    rewrite HT by apply is_vec_colv. auto. Qed.
Lemma monomials1 r : 0 < r -> monomials 1 r = map (fun i => [i]) (seq 0 r).
Proof. intros _. rewrite monomials_desc. cbn [desc map]. induction (seq 0 r) as [|i l IH]; cbn; auto. Qed.
Lemma dedicated_lawful r m p c : 0 < r -> 0 < m -> dedicated p = Some c -> lawful r m (lib_cls c) (poly_feature r p).
Proof. intros Hr Hm Hd. apply (lawful_ext r m (lib_cls c) (lib_feature r m c)); [apply lib_lawful; auto| |].
  - destruct p as [|[|[|[|[|p]]]]]; cbn [dedicated] in Hd; try discriminate; injection Hd as <-; try reflexivity. cbn [lib_feature fst].
    rewrite monomials1, map_length, seq_length by auto. reflexivity.
  - intros q u Hq Hu. destruct p as [|[|[|[|[|p]]]]]; cbn [dedicated] in Hd; try discriminate; injection Hd as <-; try reflexivity. cbn [lib_feature snd].
    rewrite monomials1 by auto. rewrite map_map. apply (vec_ext r); auto; [unfold is_vec; rewrite map_length, seq_length; auto|]. intros i Hi.
    rewrite vget_tab by auto. unfold mono, lprod. cbn. ring. Qed.
Lemma dedicated_type p c : dedicated p = Some c -> oc_type (lib_cls c) = oc_type (poly_cls p).
Proof. intros Hd. destruct p as [|[|[|[|[|p]]]]]; cbn [dedicated] in Hd; try discriminate; injection Hd as <-; reflexivity. Qed.
Lemma type_of_inj a b : type_of a = type_of b -> a = b.
Proof. destruct a as [| |[]| |], b as [| |[]| |]; cbn; intros; try discriminate; reflexivity. Qed.
Lemma poly_type_inj p p' : poly_type p = poly_type p' -> p = p'.
Proof. unfold poly_type. destruct (Nat.leb_spec p 4), (Nat.leb_spec p' 4); lia. Qed.
Lemma poly_type_lib p c : poly_type p = type_of c -> dedicated p = Some c.
Proof. unfold poly_type. destruct (Nat.leb_spec p 4).
  - intros E. destruct p as [|[|[|[|[|p]]]]]; try lia; destruct c as [| |[]| |]; cbn in E; try discriminate; reflexivity.
  - intros E. assert (type_of c <= 6) by (destruct c as [| |[]| |]; cbn; lia). lia. Qed.

(* one for the other *)
Lemma exchange_features r m args1 args2 : 0 < r -> 0 < m -> Forall2 (exchanged r m) args1 args2 ->
  exists fs, Forall2 (described r m) args1 fs /\ Forall2 (described r m) args2 fs /\ map snd args1 = map snd args2.
Proof. intros Hr Hm. induction 1 as [|a b args1 args2 H HF (fs & H1 & H2 & H3)]; [exists []; auto|].
  destruct H as [(<- & f & Hf)|(p & c & e & Hd & He & -> & ->)].
  - exists (f :: fs). cbn. rewrite H3. auto.
  - exists (poly_feature r p :: fs). cbn. rewrite H3. split; [|split; auto]; constructor; auto; split; auto.
    + apply dedicated_lawful; auto.
    + apply poly_lawful; auto. Qed.
Lemma polynomial_instead X r m k args1 args2 d1 d2 states lhs inputs Q Z U : lsx_ok X -> 0 < r -> 0 < m ->
  Forall2 (exchanged r m) args1 args2 -> some_unknown args1 ->
  greach X r m args1 d1 -> greach X r m args2 d2 -> gm_solver d1 = gm_solver d2 -> data r m k args1 states lhs inputs Q Z U ->
  match gfit X d1 states lhs inputs, gfit X d2 states lhs inputs with
  | Ok d1', Ok d2' =>
      map go_ent (gm_ops d1') = map go_ent (gm_ops d2') /\ goperator_matrix d1' = goperator_matrix d2' /\
      forall q u ou, is_vec r q -> is_vec m u -> (any_inputs args1 -> ou = Some (V u)) -> grhs d1' (V q) ou = grhs d2' (V q) ou
  | Err e1, Err e2 => e1 = e2
  | _, _ => False
  end.
Proof. intros HX Hr Hm HF Hn HR1 HR2 HS HD. destruct (exchange_features r m args1 args2 Hr Hm HF) as (fs & H1 & H2 & H3).
  assert (HA : any_inputs args2 -> any_inputs args1).
  { intros (b & Hb & Ib). clear - HF Hb Ib. induction HF as [|a b0 args1 args2 H HF IH]; [destruct Hb|]. destruct Hb as [->|Hb].
    - destruct H as [(<- & _)|(p & c & e & _ & _ & _ & ->)]; [|discriminate]. exists a. split; [left; auto|auto].
    - destruct (IH Hb) as (a0 & Ha & Hi). exists a0. split; [right; auto|auto]. }
  assert (HD2 : data r m k args2 states lhs inputs Q Z U) by (destruct HD; constructor; auto).
  assert (K := same_features_same_fit X r m k args1 args2 fs d1 d2 states lhs inputs inputs Q Z U HX Hr Hm H1 H2 H3 Hn HR1 HR2 HS HD HD2).
  destruct (gfit X d1 states lhs inputs), (gfit X d2 states lhs inputs); auto. destruct K as (K1 & _ & K2 & K3). split; auto. split; auto.
  intros q u ou Hq Hu Hin. apply (K3 q u ou ou); auto. Qed.
Lemma poly_types : (forall p p', oc_type (poly_cls p) = oc_type (poly_cls p') <-> p = p') /\
  (forall p c, oc_type (poly_cls p) = oc_type (lib_cls c) <-> dedicated p = Some c) /\
  (forall c c', oc_type (lib_cls c) = oc_type (lib_cls c') <-> c = c').
Proof. split; [|split].
  - intros p p'. split; [apply poly_type_inj|congruence].
  - intros p c. split; [apply poly_type_lib|intros H; symmetry; apply dedicated_type; auto].
  - intros c c'. split; [apply type_of_inj|congruence]. Qed.

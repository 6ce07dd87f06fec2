(* AnyRomProofs.v -- encode, decode, project, fit and predict of ROMs made of any parts. *)
From Coq Require Import ZArith Lia.
From Verif Require Import LinAlg MatAlg AffProofs RomParts RomProofs RomFit.
From Verif Require Import SpecAnyRom.
#[local] Open Scope nat_scope.
#[local] Open Scope list_scope.

Section P.
  Context (T : tclass) (B : bclass) {A : Type} (D : mclass A).
  Notation rom := (arom T B D).
  Implicit Types r : rom.

  Lemma avia_call {X} (x : option X) f (a b : arr) : opt_call x f a = Ok b <-> via x f a b.
  Proof. unfold opt_call, via. destruct x; [tauto|]. split; [intros K; injection K; auto|intros ->; auto]. Qed.
  (* encode(states, lhs) without fitting *)
  Lemma aencode_eq r a lhs : aencode T B D r a lhs =
    do l <- a_lifting T B D r a lhs;
    do t <- (do b <- opt_call (a_tf r) (ct_transform T) (fst l); do z <- opt_map (opt_call (a_tf r) (if cm_cont D then ct_ddts T else ct_transform T)) (snd l); Ok (b, z));
    do q <- opt_call (a_basis r) (cb_compress B) (fst t); do z <- opt_map (opt_call (a_basis r) (cb_compress B)) (snd t); Ok (q, z).
  Proof. unfold aencode, aencode_fit. destruct (a_lifting _ _ _ r a lhs) as [[a1 z1]|]; auto. cbn [bind fst snd].
    assert (IDZ : forall z : option arr, opt_map (fun b => Ok b) z = Ok z) by (intros [z|]; reflexivity).
    unfold a_transforming. destruct (a_tf r) as [t|] eqn:Et.
    - unfold sbind. cbn [snd fst opt_call]. destruct (ct_transform T t a1) as [b|]; auto. cbn [bind].
      replace (opt_map (opt_call (Some t) (if cm_cont D then ct_ddts T else ct_transform T)) z1) with (opt_map (if cm_cont D then ct_ddts T t else ct_transform T t) z1) by (destruct z1; auto; cbn; destruct (cm_cont D); auto).
      destruct (opt_map _ z1) as [z2|]; auto. cbn [bind fst snd]. unfold a_compressing. cbn [with_tf a_basis]. destruct (a_basis r) as [b0|]; cbn [opt_call snd bind]; auto.
      change (opt_map (opt_call None (cb_compress B)) z2) with (opt_map (fun b : arr => Ok b) z2). rewrite IDZ. auto.
    - unfold sbind. cbn [snd fst opt_call bind]. change (opt_map (opt_call None _) z1) with (opt_map (fun b : arr => Ok b) z1). rewrite IDZ. cbn [bind fst snd].
      unfold a_compressing. destruct (a_basis r) as [b0|]; cbn [opt_call snd bind]; auto. change (opt_map (opt_call None _) z1) with (opt_map (fun b : arr => Ok b) z1). rewrite IDZ. auto. Qed.
  Lemma opt_map_some {X} (f : X -> res X) z y : opt_map f (Some z) = Ok y <-> exists x, y = Some x /\ f z = Ok x.
  Proof. cbn. destruct (f z) as [x|]; cbn; split; try (intros (x' & ? & K); discriminate); try discriminate. - intros K; injection K as <-; eauto. - intros (x' & -> & K). injection K as ->. auto. Qed.
  Lemma bindok {X Y} (x : res X) (f : X -> res Y) y : bind x f = Ok y <-> exists a, x = Ok a /\ f a = Ok y.
  Proof. destruct x as [a|]; cbn; split; try (intros (a' & K & ?); congruence); try discriminate. intros K; eauto. Qed.
  Theorem any_encode r a q : aencode1 T B D r a = Ok q <-> exists l t, via (a_lift r) lf_lift a l /\ via (a_tf r) (ct_transform T) l t /\ via (a_basis r) (cb_compress B) t q.
  Proof. unfold aencode1. rewrite aencode_eq. unfold a_lifting. split.
    - intros H. apply bindok in H as ([q' z'] & H & K). injection K as <-. apply bindok in H as ([l z] & E1 & H). apply bindok in H as ([t z2] & E2 & H). apply bindok in E2 as (t' & E2 & E3). cbn [fst snd] in *.
      apply bindok in E3 as (z3 & _ & K). injection K as <- <-. apply bindok in H as (q & E4 & H). apply bindok in H as (z4 & _ & K). injection K as <- <-. exists l, t'.
      apply avia_call in E2, E4. split; auto. destruct (a_lift r) as [f|]; cbn in *; [|injection E1; auto]. apply bindok in E1 as (b & E1 & K). injection K as <- <-. auto.
    - intros (l & t & H1 & H2 & H3). apply avia_call in H2, H3. destruct (a_lift r) as [f|]; cbn [via opt_map bind] in *.
      + rewrite H1. cbn [bind fst snd]. rewrite H2. cbn [bind opt_map fst snd]. rewrite H3. auto.
      + subst l. cbn [fst snd]. rewrite H2. cbn [bind opt_map fst snd]. rewrite H3. auto. Qed.
  Theorem any_encode_lhs r a d q z : aencode T B D r a (Some d) = Ok (q, z) <-> exists z' dl dt, z = Some z' /\ aencode1 T B D r a = Ok q /\
    (if cm_cont D then via (a_lift r) (fun f => lf_ddts f a) d dl else via (a_lift r) lf_lift d dl) /\
    via (a_tf r) (if cm_cont D then ct_ddts T else ct_transform T) dl dt /\ via (a_basis r) (cb_compress B) dt z'.
  Proof. rewrite aencode_eq. split.
    - intros H. apply bindok in H as ([l zl] & E1 & H). apply bindok in H as ([t zt] & E2 & H). apply bindok in E2 as (t' & E2 & E3). cbn [fst snd] in *.
      apply bindok in E3 as (z3 & E3 & K). injection K as <- <-. apply bindok in H as (q' & E4 & H). apply bindok in H as (z4 & E5 & K). injection K as <- <-.
      assert (X : exists dl, zl = Some dl /\ via (a_lift r) lf_lift a l /\ (if cm_cont D then via (a_lift r) (fun f => lf_ddts f a) d dl else via (a_lift r) lf_lift d dl)).
      { unfold a_lifting in E1. destruct (a_lift r) as [f|]. - apply bindok in E1 as (z1 & F1 & E1). apply bindok in E1 as (b & F2 & K). injection K as <- <-. apply opt_map_some in F1 as (x & -> & F1). exists x. split; auto. split; auto. destruct (cm_cont D); auto.
        - injection E1 as <- <-. exists d. cbn. split; auto. split; auto. destruct (cm_cont D); auto. }
      destruct X as (dl & -> & X1 & X2). apply opt_map_some in E3 as (dt & -> & E3). apply opt_map_some in E5 as (z' & -> & E5). apply avia_call in E2, E3, E4, E5. exists z', dl, dt. split; auto.
      split. { apply any_encode. exists l, t'. auto. } auto.
    - intros (z' & dl & dt & -> & HE & H1 & H2 & H3). apply any_encode in HE as (l & t & G1 & G2 & G3). apply avia_call in H2, H3, G2, G3.
      assert (E1 : a_lifting T B D r a (Some d) = Ok (l, Some dl)). { unfold a_lifting. destruct (a_lift r) as [f|]; cbn [via opt_map] in *. - rewrite G1. destruct (cm_cont D); rewrite H1; auto. - subst l. destruct (cm_cont D); subst dl; auto. }
      rewrite E1. cbn [bind fst snd]. rewrite G2. cbn [bind opt_map fst snd]. rewrite H2. cbn [bind fst snd]. rewrite G3. cbn [bind opt_map fst snd]. rewrite H3. auto. Qed.
  Theorem any_decode r q locs x : adecode T B D r q locs = Ok x <-> exists t l, via (a_basis r) (fun b y => cb_decompress B b y locs) q t /\
    via (a_tf r) (fun t z => ct_inverse T t z locs) t l /\ via (a_lift r) lf_unlift l x.
  Proof. unfold adecode. split.
    - intros H. apply bindok in H as (t & E1 & H). apply bindok in H as (l & E2 & H). apply avia_call in E1, E2, H. exists t, l. auto.
    - intros (t & l & H1 & H2 & H3). apply avia_call in H1, H2, H3. rewrite H1. cbn [bind]. rewrite H2. auto. Qed.

  (* round trips *)
  Lemma undo_via {X} (x : option X) f g a b : undoes x f g -> via x f a b -> via x g b a.
  Proof. unfold undoes, via. destruct x; eauto. Qed.
  Theorem any_decode_encode r a q : undoes (a_lift r) lf_lift lf_unlift -> undoes (a_tf r) (ct_transform T) (fun t z => ct_inverse T t z None) ->
    undoes (a_basis r) (cb_compress B) (fun b y => cb_decompress B b y None) -> aencode1 T B D r a = Ok q -> adecode T B D r q None = Ok a /\ aproject T B D r a = Ok a.
  Proof. intros H1 H2 H3 E. assert (K : adecode T B D r q None = Ok a). { apply any_encode in E as (l & t & E1 & E2 & E3). apply any_decode. exists t, l. split; [eapply undo_via; eauto|]. split; eapply undo_via; eauto. }
    split; auto. unfold aproject. rewrite E. auto. Qed.
  Theorem any_encode_decode r q x : undoes (a_lift r) lf_unlift lf_lift -> undoes (a_tf r) (fun t z => ct_inverse T t z None) (ct_transform T) ->
    undoes (a_basis r) (fun b y => cb_decompress B b y None) (cb_compress B) -> adecode T B D r q None = Ok x -> aencode1 T B D r x = Ok q.
  Proof. intros H1 H2 H3 E. apply any_decode in E as (t & l & E1 & E2 & E3). apply any_encode. exists l, t. split; [eapply undo_via; eauto|]. split; [|eapply undo_via; eauto]. apply (undo_via _ _ _ _ _ H2 E2). Qed.
  Theorem any_project r a p : undoes (a_lift r) lf_unlift lf_lift -> undoes (a_tf r) (fun t z => ct_inverse T t z None) (ct_transform T) ->
    undoes (a_basis r) (fun b y => cb_decompress B b y None) (cb_compress B) -> aproject T B D r a = Ok p -> aproject T B D r p = Ok p /\ aencode1 T B D r p = aencode1 T B D r a.
  Proof. intros H1 H2 H3 E. unfold aproject in E |- *. apply bindok in E as (q & E1 & E2). assert (K := any_encode_decode r q p H1 H2 H3 E2). rewrite K, E1. cbn [bind]. auto. Qed.
  Theorem any_predict r args q0 Y : apredict T B D r args q0 = Ok Y <-> exists e Z, aencode1 T B D r q0 = Ok e /\ cm_predict D (a_model r) args e = Ok Z /\ adecode T B D r Z None = Ok Y.
  Proof. unfold apredict. rewrite bindok. split; [intros (e & E & K); apply bindok in K as (Z & K1 & K2); eauto|]. intros (e & Z & E & K1 & K2). exists e. split; auto. rewrite bindok. eauto. Qed.
  (* the prediction starts at the projected initial state *)
  Theorem any_predict_starts r n p args q0 Y : columnwise p n (fun q => adecode T B D r q None) ->
    (forall e Z, aencode1 T B D r (V q0) = Ok (V e) -> cm_predict D (a_model r) args (V e) = Ok Z -> exists k, 0 < k /\ shaped p k Z /\ col p Z 0 = e) ->
    (forall e, aencode1 T B D r (V q0) = Ok e -> exists v, e = V v) ->
    apredict T B D r args (V q0) = Ok Y -> aproject T B D r (V q0) = Ok (V (col n Y 0)).
  Proof. intros HC HS HV E. apply any_predict in E as (e & Z & E1 & E2 & E3). destruct (HV e E1) as (v & ->). destruct (HS v Z E1 E2) as (k & Hk & HZ & Hc). unfold aproject. rewrite E1. cbn [bind].
    destruct (HC k Z HZ Y E3) as (_ & _ & HJ). rewrite <- Hc. apply HJ. auto. Qed.
End P.

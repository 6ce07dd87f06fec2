(* RomProofs.v -- encode, decode and project (C51). *)
From Verif Require Import LinAlg MatAlg PreProofs PreLocs PreFinal BasisProofs BasisMultiProofs SpecRom RomParts.
From Coq Require Import Lra Lia Psatz.
#[local] Open Scope nat_scope.

Lemma via_call {T A} (x : option T) (f : T -> A -> res A) a b : via x f a b <-> opt_call x f a = Ok b.
Proof. destruct x; cbn; [tauto|]. split; [now intros ->|now intros [= ->]]. Qed.
Lemma parts_eta P : {| rp_lift := rp_lift P; rp_tf := rp_tf P; rp_basis := rp_basis P |} = P. Proof. now destruct P. Qed.
(* encode, step by step *)
Lemma encode_eq P cont a lhs : encode P cont a lhs =
  do al <- rom_lift P cont a lhs;
  do b <- opt_call (rp_tf P) transform (fst al);
  do z <- opt_map (fun z => opt_call (rp_tf P) (if cont then transform_ddts else transform) z) (snd al);
  do q <- opt_call (rp_basis P) rb_compress b;
  do y <- opt_map (fun z => opt_call (rp_basis P) rb_compress z) z; Ok (q, y).
Proof.
  unfold encode, encode_fit. destruct (rom_lift P cont a lhs) as [[l z]|e]; cbn [bind fst snd]; [|reflexivity]. unfold rom_transform, rom_compress.
  assert (EO : forall {A} (z : option A), opt_map (fun z => Ok z) z = Ok z) by (intros A [x|]; reflexivity).
  destruct (rp_tf P) as [t|] eqn:Et; cbn [opt_call bind].
  - destruct (transform t l) as [b|e]; cbn [bind]; [|reflexivity].
    replace (opt_map (fun z0 => (if cont then transform_ddts else transform) t z0) z) with (opt_map (if cont then transform_ddts t else transform t) z) by (destruct z, cont; reflexivity).
    destruct (opt_map _ z) as [z1|e]; cbn [bind rp_basis]; [|reflexivity]. destruct (rp_basis P) as [c|]; cbn [opt_call bind]; [|now rewrite EO].
    destruct (rb_compress c b) as [q|e]; cbn [bind]; [|reflexivity]. now destruct (opt_map (rb_compress c) z1).
  - rewrite EO. cbn [bind]. destruct (rp_basis P) as [c|]; cbn [opt_call bind]; [|now rewrite EO].
    destruct (rb_compress c l) as [q|e]; cbn [bind]; [|reflexivity]. now destruct (opt_map (rb_compress c) z).
Qed.
Ltac dm H := match type of H with (do x <- ?y; _) = Ok _ => destruct y eqn:?; [|discriminate H]; cbn [bind] in H end.
Lemma encode_none P cont a q z : encode P cont a None = Ok (q, z) <->
  z = None /\ exists l t, via (rp_lift P) lf_lift a l /\ via (rp_tf P) transform l t /\ via (rp_basis P) rb_compress t q.
Proof.
  rewrite encode_eq. unfold rom_lift. split.
  - destruct (rp_lift P) as [f|]; cbn [opt_map bind fst snd]; intros H.
    + destruct (lf_lift f a) as [l|] eqn:E; cbn [bind fst snd opt_map] in H; [|discriminate]. dm H. dm H. injection H as <- <-. split; auto. exists l, a0. rewrite !via_call. cbn [opt_call]. auto.
    + dm H. dm H. injection H as <- <-. split; auto. exists a, a0. rewrite !via_call. cbn [opt_call]. auto.
  - intros (-> & l & t & H1 & H2 & H3). apply via_call in H1, H2, H3. destruct (rp_lift P) as [f|]; cbn [opt_call opt_map bind fst snd] in *.
    + rewrite H1. cbn [bind fst snd opt_map]. rewrite H2. cbn [bind]. rewrite H3. reflexivity.
    + injection H1 as ->. rewrite H2. cbn [bind]. rewrite H3. reflexivity.
Qed.
Lemma encode1_iff P a q : encode1 P a = Ok q <-> exists l t, via (rp_lift P) lf_lift a l /\ via (rp_tf P) transform l t /\ via (rp_basis P) rb_compress t q.
Proof.
  unfold encode1. split.
  - intros H. destruct (encode P false a None) as [[q' z]|] eqn:E; [|discriminate]. injection H as <-. now apply encode_none in E as [_ H].
  - intros H. assert (E : encode P false a None = Ok (q, None)) by now apply encode_none. now rewrite E.
Qed.
Lemma encode_cont_none P cont a : encode P cont a None = do q <- encode1 P a; Ok (q, None).
Proof.
  assert (E : encode P cont a None = encode P false a None).
  { rewrite !encode_eq. unfold rom_lift. destruct (rp_lift P) as [f|]; cbn [opt_map bind fst snd]; [|reflexivity]. now destruct (lf_lift f a). }
  rewrite E. unfold encode1. destruct (encode P false a None) as [[q z]|e] eqn:F; cbn [bind fst]; [|reflexivity].
  apply encode_none in F. now destruct F as [-> _].
Qed.
Lemma encode_discrete P a d q z : encode P false a (Some d) = Ok (q, z) <-> exists z', z = Some z' /\ encode1 P a = Ok q /\ encode1 P d = Ok z'.
Proof.
  split.
  - rewrite encode_eq. unfold rom_lift. intros H.
    assert (HL : exists l1 l2, via (rp_lift P) lf_lift a l1 /\ via (rp_lift P) lf_lift d l2 /\
      (do b <- opt_call (rp_tf P) transform l1; do z <- opt_map (fun z => opt_call (rp_tf P) transform z) (Some l2);
       do q <- opt_call (rp_basis P) rb_compress b; do y <- opt_map (fun z => opt_call (rp_basis P) rb_compress z) z; Ok (q, y)) = Ok (q, z)).
    { destruct (rp_lift P) as [f|]; cbn [opt_map bind fst snd via] in *; [|eauto].
      destruct (lf_lift f d) as [l2|] eqn:E2; cbn [bind] in H; [|discriminate]. destruct (lf_lift f a) as [l1|] eqn:E1; cbn [bind fst snd] in H; [|discriminate].
      exists l1, l2. auto. }
    clear H. destruct HL as (l1 & l2 & V1 & V2 & H). cbn [opt_map] in H. dm H. 
    destruct (opt_call (rp_tf P) transform l2) as [t2|] eqn:Et2; cbn [bind] in H; [|discriminate]. dm H. cbn [opt_map] in H.
    destruct (opt_call (rp_basis P) rb_compress t2) as [q2|] eqn:Eq2; cbn [bind] in H; [|discriminate]. injection H as <- <-.
    exists q2. split; auto. rewrite !encode1_iff. split; [exists l1, a0|exists l2, t2]; rewrite !via_call in *; auto.
  - intros (z' & -> & H1 & H2). apply encode1_iff in H1 as (l1 & t1 & A1 & A2 & A3). apply encode1_iff in H2 as (l2 & t2 & B1 & B2 & B3).
    rewrite encode_eq. apply via_call in A1, A2, A3, B1, B2, B3. unfold rom_lift. destruct (rp_lift P) as [f|]; cbn [opt_call opt_map bind fst snd] in *.
    + rewrite A1, B1. cbn [bind fst snd opt_map]. rewrite A2, B2. cbn [bind opt_map]. rewrite A3, B3. reflexivity.
    + injection A1 as ->. injection B1 as ->. rewrite A2, B2. cbn [bind opt_map]. rewrite A3, B3. reflexivity.
Qed.
Lemma encode_continuous P a d q z : encode P true a (Some d) = Ok (q, z) <-> exists z' dl dt, z = Some z' /\ encode1 P a = Ok q /\
  via (rp_lift P) (fun f => lf_ddts f a) d dl /\ via (rp_tf P) transform_ddts dl dt /\ via (rp_basis P) rb_compress dt z'.
Proof.
  split.
  - rewrite encode_eq. unfold rom_lift. intros H.
    assert (HL : exists l1 l2, via (rp_lift P) lf_lift a l1 /\ via (rp_lift P) (fun f => lf_ddts f a) d l2 /\
      (do b <- opt_call (rp_tf P) transform l1; do z <- opt_map (fun z => opt_call (rp_tf P) transform_ddts z) (Some l2);
       do q <- opt_call (rp_basis P) rb_compress b; do y <- opt_map (fun z => opt_call (rp_basis P) rb_compress z) z; Ok (q, y)) = Ok (q, z)).
    { destruct (rp_lift P) as [f|]; cbn [opt_map bind fst snd via] in *; [|eauto].
      destruct (lf_ddts f a d) as [l2|] eqn:E2; cbn [bind] in H; [|discriminate]. destruct (lf_lift f a) as [l1|] eqn:E1; cbn [bind fst snd] in H; [|discriminate].
      exists l1, l2. auto. }
    clear H. destruct HL as (l1 & l2 & V1 & V2 & H). cbn [opt_map] in H. dm H.
    destruct (opt_call (rp_tf P) transform_ddts l2) as [t2|] eqn:Et2; cbn [bind] in H; [|discriminate]. dm H. cbn [opt_map] in H.
    destruct (opt_call (rp_basis P) rb_compress t2) as [q2|] eqn:Eq2; cbn [bind] in H; [|discriminate]. injection H as <- <-.
    exists q2, l2, t2. split; auto. rewrite encode1_iff. split; [exists l1, a0|]; rewrite !via_call in *; auto.
  - intros (z' & l2 & t2 & -> & H1 & B1 & B2 & B3). apply encode1_iff in H1 as (l1 & t1 & A1 & A2 & A3).
    rewrite encode_eq. apply via_call in A1, A2, A3, B1, B2, B3. unfold rom_lift. destruct (rp_lift P) as [f|]; cbn [opt_call opt_map bind fst snd] in *.
    + rewrite A1, B1. cbn [bind fst snd opt_map]. rewrite A2, B2. cbn [bind opt_map]. rewrite A3, B3. reflexivity.
    + injection A1 as ->. injection B1 as ->. rewrite A2, B2. cbn [bind opt_map]. rewrite A3, B3. reflexivity.
Qed.
Lemma decode_iff P q locs x : decode P q locs = Ok x <-> exists t l, via (rp_basis P) (fun b y => rb_decompress b y locs) q t /\
  via (rp_tf P) (fun t z => inverse_transform t locs z) t l /\ via (rp_lift P) lf_unlift l x.
Proof.
  unfold decode. split.
  - intros H. dm H. dm H. exists a, a0. rewrite !via_call. auto.
  - intros (t & l & H1 & H2 & H3). apply via_call in H1, H2, H3. rewrite H1. cbn [bind]. rewrite H2. cbn [bind]. exact H3.
Qed.

(* fitting while encoding *)
Lemma encode_fits P cont ft fb a lhs P' q z :
  match rp_tf P with Some t => ft = true -> built t | None => True end ->
  encode_fit P cont ft fb a lhs = Ok (P', q, z) ->
  encode P' cont a lhs = Ok (q, z) /\ rp_lift P' = rp_lift P /\ exists l t, via (rp_lift P) lf_lift a l /\ via (rp_tf P') transform l t /\
    match rp_tf P, rp_tf P' with
    | None, None => True
    | Some s, Some s' => if ft then fit_transform s l = Ok (s', t) else s' = s
    | _, _ => False
    end /\
    match rp_basis P, rp_basis P' with
    | None, None => True
    | Some b, Some b' => match fb with Some X => rb_fit X b t = Ok b' | None => b' = b end
    | _, _ => False
    end.
Proof.
  intros Hb H. unfold encode_fit in H. destruct (rom_lift P cont a lhs) as [[l y]|e] eqn:El; cbn [bind] in H; [|discriminate].
  assert (Vl : via (rp_lift P) lf_lift a l).
  { unfold rom_lift in El. destruct (rp_lift P) as [f|]; cbn [via]; [|now injection El as <- _]. dm El. dm El. now injection El as <- _. }
  assert (HT : exists t y2 P2, rom_transform P cont ft l y = Ok (P2, t, y2) /\ rp_lift P2 = rp_lift P /\ rp_basis P2 = rp_basis P /\ via (rp_tf P2) transform l t /\
    opt_map (fun z => opt_call (rp_tf P2) (if cont then transform_ddts else transform) z) y = Ok y2 /\
    match rp_tf P, rp_tf P2 with None, None => True | Some s, Some s' => if ft then fit_transform s l = Ok (s', t) else s' = s | _, _ => False end).
  { unfold rom_transform in *. destruct (rp_tf P) as [s|] eqn:Es.
    - destruct (if ft then fit_transform s l else do b <- transform s l; Ok (s, b)) as [[s' t]|e] eqn:E1; cbn [bind] in *; [|discriminate].
      destruct (opt_map (if cont then transform_ddts s' else transform s') y) as [y2|e] eqn:E2; cbn [bind] in *; [|discriminate].
      exists t, y2, {| rp_lift := rp_lift P; rp_tf := Some s'; rp_basis := rp_basis P |}. cbn [rp_lift rp_tf rp_basis via opt_call]. repeat split; auto.
      + destruct ft. { now destruct (C_fit_transform s l s' t (Hb eq_refl) E1) as (_ & _ & ?). } dm E1. now injection E1 as <- <-.
      + rewrite <- E2. destruct y, cont; reflexivity.
      + destruct ft; auto. dm E1. now injection E1 as <- <-.
    - exists l, y, P. rewrite Es. cbn [via opt_call]. repeat split; auto. now destruct y. }
  destruct HT as (t & y2 & P2 & E2 & L2 & B2 & V2 & M2 & F2). rewrite E2 in H. cbn [bind] in H. unfold rom_compress in H.
  assert (HC : rp_lift P' = rp_lift P2 /\ rp_tf P' = rp_tf P2 /\ opt_call (rp_basis P') rb_compress t = Ok q /\ opt_map (fun z => opt_call (rp_basis P') rb_compress z) y2 = Ok z /\
    match rp_basis P2, rp_basis P' with None, None => True | Some b, Some b' => match fb with Some X => rb_fit X b t = Ok b' | None => b' = b end | _, _ => False end).
  { destruct (rp_basis P2) as [b|] eqn:Eb.
    - destruct (match fb with Some X => rb_fit X b t | None => Ok b end) as [b'|] eqn:E3; cbn [bind] in H; [|discriminate].
      destruct (rb_compress b' t) as [q'|] eqn:E4; cbn [bind] in H; [|discriminate]. destruct (opt_map (rb_compress b') y2) as [z'|] eqn:E5; cbn [bind] in H; [|discriminate].
      injection H as <- <- <-. cbn [rp_lift rp_tf rp_basis opt_call]. repeat split; auto. destruct fb; auto. now injection E3.
    - injection H as <- <- <-. rewrite Eb. cbn [opt_call]. repeat split; auto. now destruct y2. }
  destruct HC as (L3 & T3 & C1 & C2 & C3). split; [|split; [congruence|]].
  - rewrite encode_eq. replace (rom_lift P' cont a lhs) with (rom_lift P cont a lhs) by (unfold rom_lift; now rewrite L3, L2).
    rewrite El. cbn [bind fst snd]. rewrite T3. apply via_call in V2. rewrite V2. cbn [bind]. rewrite M2. cbn [bind]. rewrite C1. cbn [bind]. rewrite C2. reflexivity.
  - exists l, t. rewrite T3. repeat split; auto. now rewrite <- B2.
Qed.

(* ---- totality and columns ------------------------------------------------------------------------------------------------- *)
Lemma maps_tf n r P : trained_parts n r P -> maps n n (opt_call (rp_tf P) transform) (opt_call (rp_tf P) transform_ddts).
Proof. intros [H _]. destruct (rp_tf P) as [t|]; cbn [opt_call]; [now apply maps_transform|apply maps_id]. Qed.
Lemma maps_basis n r P : trained_parts n r P -> maps n r (opt_call (rp_basis P) rb_compress) (opt_call (rp_basis P) rb_compress).
Proof. intros [_ H]. destruct (rp_basis P) as [t|]; cbn [opt_call]; [now apply maps_compress|subst; apply maps_id]. Qed.
Lemma maps_unbasis n r P : trained_parts n r P -> maps r n (opt_call (rp_basis P) (fun b y => rb_decompress b y None)) (opt_call (rp_basis P) (fun b y => rb_decompress b y None)).
Proof. intros [_ H]. destruct (rp_basis P) as [t|]; cbn [opt_call]; [now apply maps_decompress|subst; apply maps_id]. Qed.
Lemma columnwise_untf n r P : trained_parts n r P -> columnwise n n (opt_call (rp_tf P) (fun t z => inverse_transform t None z)).
Proof. intros [H _]. destruct (rp_tf P) as [t|]; cbn [opt_call]; [now apply columnwise_inverse|apply columnwise_id]. Qed.
Lemma columnwise_ext n m f g : (forall a, g a = f a) -> columnwise n m f -> columnwise n m g.
Proof. intros E H k a Ha b Eb. rewrite E in Eb. destruct (H k a Ha b Eb) as (H1 & H2 & H3). split; auto. split; auto. intros j Hj. rewrite E. auto. Qed.
Lemma encode1_eq P a : encode1 P a = do l <- opt_call (rp_lift P) lf_lift a; do t <- opt_call (rp_tf P) transform l; opt_call (rp_basis P) rb_compress t.
Proof.
  unfold encode1. rewrite encode_eq. unfold rom_lift. destruct (rp_lift P) as [f|]; cbn [opt_call opt_map bind fst snd].
  - destruct (lf_lift f a); cbn [bind fst snd opt_map]; [|reflexivity]. destruct (opt_call (rp_tf P) transform a0); cbn [bind]; [|reflexivity]. now destruct (opt_call (rp_basis P) rb_compress a1).
  - destruct (opt_call (rp_tf P) transform a); cbn [bind]; [|reflexivity]. now destruct (opt_call (rp_basis P) rb_compress a0).
Qed.
Lemma encode_columns n0 n r P : trained_parts n r P -> columnwise_lifter n0 n (rp_lift P) -> columnwise n0 r (encode1 P).
Proof.
  intros HP HL. apply (columnwise_ext n0 r _ _ (encode1_eq P)). apply (columnwise_comp n0 n r).
  - destruct (rp_lift P) as [f|]; cbn [opt_call columnwise_lifter] in *; [tauto|]. subst. apply columnwise_id.
  - apply (columnwise_comp n n r); eapply maps_columnwise; [eapply maps_tf|eapply maps_basis]; eauto.
Qed.
Lemma decode_columns n0 n r P : trained_parts n r P -> columnwise_lifter n0 n (rp_lift P) -> columnwise r n0 (fun q => decode P q None).
Proof.
  intros HP HL. unfold decode. apply (columnwise_comp r n n0). { eapply maps_columnwise, maps_unbasis; eauto. }
  apply (columnwise_comp n n n0). { eapply columnwise_untf; eauto. }
  destruct (rp_lift P) as [f|]; cbn [opt_call columnwise_lifter] in *; [tauto|]. subst. apply columnwise_id.
Qed.

(* decode(encode(Q)), up to unlifting *)
Lemma untf_total n r k P s : trained_parts n r P -> shaped n k s -> exists y, via (rp_tf P) (fun t z => inverse_transform t None z) s y /\ via (rp_tf P) transform y s /\ shaped n k y /\ same_kind s y.
Proof.
  intros [H _] Hs. destruct (rp_tf P) as [t|]; cbn [via]. 2:{ exists s. repeat split; auto. apply same_kind_refl. }
  destruct (C01_all t n H s (shaped_alen _ _ _ Hs)) as [_ (y & E1 & E2 & E3)]. exists y. split; auto. split; auto. now apply same_shape_shaped.
Qed.
Lemma tf_untf n r k P l t y : trained_parts n r P -> shaped n k l -> via (rp_tf P) transform l t -> via (rp_tf P) (fun t z => inverse_transform t None z) t y -> y = l.
Proof.
  intros [H _] Hs. destruct (rp_tf P) as [u|]; cbn [via]. 2:{ congruence. }
  destruct (C01_all u n H l (shaped_alen _ _ _ Hs)) as [(b & E1 & E2 & E3) _]. congruence.
Qed.
Lemma via_unique {T A} (x : option T) (f : T -> A -> res A) a b c : via x f a b -> via x f a c -> b = c.
Proof. destruct x; cbn; congruence. Qed.
Lemma bind_assoc {A B C} (x : res A) (f : A -> res B) (g : B -> res C) : (do b <- (do a <- x; f a); g b) = do a <- x; do b <- f a; g b.
Proof. now destruct x. Qed.
Lemma project_transformed n r k P a l : trained_parts n r P -> via (rp_lift P) lf_lift a l -> shaped n k l ->
  exists t q s y, via (rp_tf P) transform l t /\ via (rp_basis P) rb_compress t q /\ via (rp_basis P) (fun b y => rb_decompress b y None) q s /\ via (rp_tf P) transform y s /\
    shaped n k t /\ shaped r k q /\ shaped n k s /\ shaped n k y /\ same_kind l y /\ encode1 P a = Ok q /\ rom_project P a = opt_call (rp_lift P) lf_unlift y.
Proof.
  intros HP HL Hl. destruct (maps_tf n r P HP) as (T1 & _). destruct (T1 k l Hl) as (t & E1 & S1 & K1). destruct (maps_basis n r P HP) as (T2 & _). destruct (T2 k t S1) as (q & E2 & S2 & K2).
  destruct (maps_unbasis n r P HP) as (T3 & _). destruct (T3 k q S2) as (s & E3 & S3 & K3). destruct (untf_total n r k P s HP S3) as (y & E4 & E5 & S5 & K5).
  exists t, q, s, y. rewrite !via_call. repeat split; auto.
  - now rewrite <- via_call.
  - eapply same_kind_trans; [exact K1|]. eapply same_kind_trans; [exact K2|]. eapply same_kind_trans; eauto.
  - rewrite encode1_eq. apply via_call in HL. rewrite HL. cbn [bind]. rewrite E1. cbn [bind]. exact E2.
  - unfold rom_project. rewrite encode1_eq. apply via_call in HL. rewrite HL. cbn [bind]. rewrite E1. cbn [bind]. rewrite E2. cbn [bind]. unfold decode. rewrite E3. cbn [bind].
    apply via_call in E4. rewrite E4. reflexivity.
Qed.
Lemma project_exact n r k P a l t : trained_parts n r P -> lifts P a l -> shaped n k l -> via (rp_tf P) transform l t -> in_range (rp_basis P) r k t -> rom_project P a = Ok a.
Proof.
  intros HP HL Hl HT HR. assert (HL1 : via (rp_lift P) lf_lift a l) by (unfold lifts in HL; destruct (rp_lift P); cbn; tauto).
  destruct (project_transformed n r k P a l HP HL1 Hl) as (t' & q & s & y & V1 & V2 & V3 & V4 & S1 & S2 & S3 & S4 & _ & _ & ->).
  rewrite (via_unique _ _ _ _ _ V1 HT) in *. clear V1.
  assert (Es : s = t).
  { unfold in_range in HR. destruct (rp_basis P) as [b|] eqn:Eb; cbn [via] in *; [|congruence].
    destruct HR as (q0 & Sq0 & _ & E0). destruct HP as [_ Ho]. rewrite Eb in Ho. destruct (rb_round n r k b q0 Ho Sq0) as (x & F1 & _ & _ & F2). rewrite E0 in F1. injection F1 as <-. congruence. }
  subst s. assert (Ey : y = l).
  { destruct HP as [Ht _]. destruct (rp_tf P) as [u|] eqn:Eu; cbn [via] in *; [|congruence].
    destruct (C01_all u n Ht y (shaped_alen _ _ _ S4)) as [(b & E1 & _ & E3) _]. destruct (C01_all u n Ht l (shaped_alen _ _ _ Hl)) as [(b' & E1' & _ & E3') _]. congruence. }
  subst y. unfold lifts in HL. destruct (rp_lift P) as [f|]; cbn [opt_call]; [tauto|]. now subst.
Qed.
Lemma decode_encode n r k P q : trained_parts n r P -> rp_lift P = None -> shaped r k q -> exists x, decode P q None = Ok x /\ shaped n k x /\ same_kind q x /\ encode1 P x = Ok q.
Proof.
  intros HP HN Hq. destruct (maps_unbasis n r P HP) as (T3 & _). destruct (T3 k q Hq) as (s & E3 & S3 & K3). destruct (untf_total n r k P s HP S3) as (y & E4 & E5 & S5 & K5).
  exists y. split. { apply decode_iff. exists s, y. rewrite HN. rewrite via_call. cbn [via]. auto. }
  split; auto. split; [eapply same_kind_trans; eauto|]. apply encode1_iff. exists y, s. rewrite HN. cbn [via]. repeat split; auto.
  destruct HP as [_ Ho]. destruct (rp_basis P) as [b|]; cbn [via opt_call] in *; [|congruence].
  destruct (rb_round n r k b q Ho Hq) as (x & F1 & _ & _ & F2). congruence.
Qed.
Lemma project_idempotent n r k P a x : trained_parts n r P -> rp_lift P = None -> shaped n k a -> rom_project P a = Ok x -> shaped n k x /\ rom_project P x = Ok x.
Proof.
  intros HP HN Ha E. assert (HL : via (rp_lift P) lf_lift a a) by now rewrite HN.
  destruct (project_transformed n r k P a a HP HL Ha) as (t & q & s & y & V1 & V2 & V3 & V4 & S1 & S2 & S3 & S4 & _ & Ee & Ep).
  unfold rom_project in E. rewrite Ee in E. cbn [bind] in E. destruct (decode_encode n r k P q HP HN S2) as (x' & F1 & F2 & _ & F3). rewrite F1 in E. injection E as <-.
  split; auto. unfold rom_project. rewrite F3. exact F1.
Qed.

(* decode at some locations *)
Lemma decode_locs n r k P q locs idx W A b : trained_parts n r P -> rp_lift P = None -> match rp_tf P with Some t => flat t | None => True end ->
  rp_basis P = Some (BOne b) -> basis_of n r W A b -> shaped r k q -> selects n locs idx ->
  exists x, decode P q None = Ok x /\ alen x = n /\ decode P q (Some locs) = Ok (asel idx x).
Proof.
  intros HP HN HF HB Hb Hq Hs. destruct (C11_linear n r k W A b q locs idx Hb Hq Hs) as (s & E1 & Ls & E2).
  destruct (b_decompress_ok n r k W A b q Hb Hq) as (s' & E1' & Ss & Ks & _). rewrite E1 in E1'. injection E1' as <-.
  destruct (untf_total n r k P s HP Ss) as (y & V1 & V2 & Sy & _). exists y. rewrite !decode_iff. split; [|split].
  - exists s, y. rewrite HB, HN. cbn [via rb_decompress]. auto.
  - exact (shaped_alen _ _ _ Sy).
  - exists (asel idx s), (asel idx y). rewrite HB, HN. cbn [via rb_decompress]. split; auto. split; auto.
    destruct HP as [Ht _]. destruct (rp_tf P) as [t|]; cbn [via] in *; [|congruence].
    destruct (C02_flat t n Ht HF locs idx Hs) as [HH _]. apply HH; auto.
Qed.

(* ---- the derivative of the encoded states ------------------------------------------------------------------------------------ *)
Lemma derivative_then n m k f F G a d e : maps n m F G -> derivative_along f a d n k e ->
  exists z, G e = Ok z /\ derivative_along (fun x => do b <- f x; F b) a d m k z.
Proof.
  intros (T1 & T2 & HR) (X & delta & Hd & HX & Se & Ke & HD). destruct (T2 k e Se) as (z & Ez & Sz & Kz). exists z. split; auto.
  exists (fun h => match F (X h) with Ok y => y | Err _ => V [] end), delta. split; auto. split; [|split; [exact Sz|split]].
  - intros h Hh. destruct (HX h Hh) as (E & Sx & Kx). destruct (T1 k (X h) Sx) as (y & Ey & Sy & Ky). rewrite E. cbn [bind]. rewrite Ey. repeat split; auto. eapply same_kind_trans; eauto.
  - eapply same_kind_trans; eauto.
  - intros i j Hi Hj. destruct (HR i Hi) as (phi & phi' & [HA1 HA2] & H1 & H2). rewrite (H2 k e z Se Ez j Hj).
    pose proof (HA2 (fun h l => aget (X h) l j) (fun l => aget e l j) (fun l Hl => HD l j Hl Hj)) as L.
    intros eps He. destruct (L eps He) as [d0 Hd0]. exists (mkposreal (Rmin d0 delta) (Rmin_pos _ _ (cond_pos d0) Hd)). intros h Hh1 Hh2. cbn in Hh2.
    assert (Hin : forall h, (Rabs h < delta)%R -> aget (match F (X h) with Ok y => y | Err _ => V [] end) i j = phi (fun l => aget (X h) l j)).
    { intros h' Hh'. destruct (HX h' Hh') as (_ & Sx & _). destruct (T1 k (X h') Sx) as (y & Ey & _). rewrite Ey. exact (H1 k (X h') y Sx Ey j Hj). }
    rewrite !Hin. { apply Hd0; auto. eapply Rlt_le_trans; [exact Hh2|apply Rmin_l]. }
    + rewrite Rabs_R0. auto.
    + rewrite Rplus_0_l. eapply Rlt_le_trans; [exact Hh2|apply Rmin_r].
Qed.
Lemma derivative_id n k a d : shaped n k a -> shaped n k d -> same_kind a d -> derivative_along (@Ok arr) a d n k d.
Proof.
  intros Ha Hd K. exists (fun h => acomb a h d), 1%R. split; [lra|]. split; [|split; auto; split; auto].
  - intros h _. split; auto. now apply shaped_acomb.
  - intros i j Hi Hj. assert (E : forall h, (aget a i j + h * aget d i j)%R = aget (acomb a h d) i j) by (intros h; symmetry; now apply (aget_acomb n k)).
    assert (L : derivable_pt_lim (fun h => aget a i j + h * aget d i j)%R 0 (0 + (1 * aget d i j + 0 * 0))%R).
    { apply (derivable_pt_lim_plus (fun _ => aget a i j) (fun h => h * aget d i j)%R); [apply derivable_pt_lim_const|].
      apply (derivable_pt_lim_mult id (fun _ => aget d i j)); [apply derivable_pt_lim_id|apply derivable_pt_lim_const]. }
    replace (0 + (1 * aget d i j + 0 * 0))%R with (aget d i j) in L by ring.
    intros eps He. destruct (L eps He) as [d0 Hd0]. exists d0. intros h Hh1 Hh2. rewrite <- !E. auto.
Qed.
Lemma derivative_ext f g a d n k e : (forall x, g x = f x) -> derivative_along f a d n k e -> derivative_along g a d n k e.
Proof. intros E (X & delta & Hd & HX & H). exists X, delta. split; auto. split; auto. intros h Hh. rewrite E. auto. Qed.
Lemma encode_derivative n0 n r k P a d e : trained_parts n r P -> shaped n0 k a -> shaped n0 k d -> same_kind a d ->
  match rp_lift P with
  | None => n = n0 /\ e = d
  | Some f => lf_ddts f a d = Ok e /\ derivative_along (lf_lift f) a d n k e
  end ->
  exists q z, encode P true a (Some d) = Ok (q, Some z) /\ encode1 P a = Ok q /\ derivative_along (encode1 P) a d r k z.
Proof.
  intros HP Ha Hd K HL.
  assert (HD : derivative_along (opt_call (rp_lift P) lf_lift) a d n k e /\ via (rp_lift P) (fun f => lf_ddts f a) d e).
  { destruct (rp_lift P) as [f|]; cbn [opt_call via] in *; [tauto|]. destruct HL as [-> ->]. split; auto. now apply derivative_id. }
  destruct HD as [HD Vd]. destruct (derivative_then n n k _ _ _ a d e (maps_tf n r P HP) HD) as (t & Et & HD2).
  destruct (derivative_then n r k _ _ _ a d t (maps_basis n r P HP) HD2) as (z & Ez & HD3).
  apply (derivative_ext _ (encode1 P)) in HD3. 2:{ intros x. now rewrite encode1_eq, bind_assoc. }
  assert (Hq : exists q, encode1 P a = Ok q).
  { destruct HD3 as (X & delta & Hdl & HX & _). destruct (HX 0%R) as (E & _); [now rewrite Rabs_R0|]. exists (X 0%R).
    assert (E0 : acomb a 0 d = a).
    { destruct (shaped_acomb n0 k a 0 d Ha Hd K) as [Sc Kc]. apply (aget_ext n0 k); auto. { now apply same_kind_sym. } intros i j Hi Hj. rewrite (aget_acomb n0 k) by auto. ring. }
    now rewrite E0 in E. }
  destruct Hq as [q Eq]. exists q, z. split; [|split; auto]. apply encode_continuous. exists z, e, t. apply via_call in Vd. rewrite !via_call. auto.
Qed.

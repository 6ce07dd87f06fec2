(* EqProofs.v -- proofs about ==. *)
From Verif Require Import PreFit SaveTf PodFinal PodHist InterpProofs GalProofs.
From Verif Require Import SpecEq.
#[local] Open Scope nat_scope.

Lemma reqb_eq x y : reqb x y = true <-> x = y.
Proof. unfold reqb. destruct (Req_EM_T x y); split; auto; discriminate. Qed.
Lemma veqb_eq u v : veqb u v = true <-> u = v.
Proof. unfold veqb. destruct (list_eq_dec Req_EM_T u v); split; auto; discriminate. Qed.
Lemma meqb_eq A B : meqb A B = true <-> A = B.
Proof. unfold meqb. destruct (list_eq_dec (list_eq_dec Req_EM_T) A B); split; auto; discriminate. Qed.
Lemma onat_eq a b : onat_eqb a b = true <-> a = b.
Proof. destruct a, b; simpl; split; intros H; try discriminate; auto. - apply Nat.eqb_eq in H. congruence. - inversion H. apply Nat.eqb_refl. Qed.
Lemma oz_eq a b : oz_eqb a b = true <-> a = b.
Proof. destruct a, b; simpl; split; intros H; try discriminate; auto. - apply Z.eqb_eq in H. congruence. - inversion H. apply Z.eqb_refl. Qed.
Lemma oent_eq a b : oent_eqb a b = true <-> a = b.
Proof. destruct a, b; simpl; split; intros H; try discriminate; auto. - apply meqb_eq in H. congruence. - inversion H. now apply meqb_eq. Qed.
Lemma scaling_eq a b : scaling_eqb a b = true <-> a = b.
Proof. destruct a as [[]|], b as [[]|]; simpl; split; intros H; try discriminate; auto. Qed.
Lemma coef_eq_vc u v : length u = length v -> coef_eqb (Vc u) (Vc v) = true <-> u = v.
Proof. intros H. simpl. rewrite H, Nat.eqb_refl. apply veqb_eq. Qed.
Lemma coef_eq_sc x y : coef_eqb (Sc x) (Sc y) = true <-> x = y.
Proof. apply reqb_eq. Qed.
Lemma coef_refl c : coef_eqb c c = true.
Proof. destruct c; [now apply reqb_eq|]. now apply coef_eq_vc. Qed.

(* coefficients of two transformers with the same options and the same dimension *)
Definition fits_n (byrow : bool) (n : option nat) (c : PreModel.coef) : Prop :=
  if byrow then exists v, c = Vc v /\ n = Some (length v) else exists x, c = Sc x.
Lemma fits_eq byrow n c d : fits_n byrow n c -> fits_n byrow n d -> coef_eqb c d = true <-> c = d.
Proof.
  unfold fits_n. destruct byrow.
  - intros [u [-> U]] [v [-> V]]. rewrite coef_eq_vc by congruence. split; congruence.
  - intros [x ->] [y ->]. rewrite coef_eq_sc. split; congruence.
Qed.

Lemma ss_eqb_true a b : ss_reach a -> ss_reach b ->
  ss_eqb a b = true <->
  ss_cent a = ss_cent b /\ ss_scaling a = ss_scaling b /\ ss_byrow a = ss_byrow b /\ ss_n a = ss_n b /\
  (ss_mean a <> None -> ss_mean a = ss_mean b) /\
  (ss_scale a <> None -> ss_scale a = ss_scale b /\ ss_shift a = ss_shift b /\ ss_shift a <> None).
Proof.
  intros Ra Rb. apply ss_reach_inv in Ra, Rb. destruct Ra as [_ A2 A3 A4 A5 A6], Rb as [_ B2 B3 B4 B5 B6].
  unfold ss_eqb. rewrite !andb_true_iff, !eqb_true_iff, scaling_eq, onat_eq.
  split.
  - intros [[[[[H1 H2] H3] H4] H5] H6]. split; [auto|]. split; [auto|]. split; [auto|]. split; [auto|]. split.
    + intros N. destruct (ss_mean a) as [m|] eqn:E; [|congruence]. destruct (ss_cent a) eqn:C; [|specialize (A2 eq_refl); discriminate].
      destruct (ss_mean b) as [m'|] eqn:E'; [|discriminate]. apply coef_eq_vc in H5; [congruence|]. specialize (A3 _ eq_refl). specialize (B3 _ eq_refl). congruence.
    + intros N. destruct (ss_scale a) as [c|] eqn:E; [|congruence]. destruct (is_none (ss_scaling a)) eqn:C. { destruct (ss_scaling a) eqn:Q; [discriminate|]. destruct (A4 eq_refl). congruence. }
      destruct (ss_scale b) as [c'|] eqn:E'; [|discriminate]. apply andb_true_iff in H6. destruct H6 as [H6 H7].
      destruct (ss_shift b) as [d'|] eqn:F'; [|discriminate]. destruct (ss_shift a) as [d|] eqn:F; [|discriminate].
      specialize (A5 _ eq_refl). specialize (B5 _ eq_refl). specialize (A6 _ eq_refl). specialize (B6 _ eq_refl). rewrite <- H3, <- H4 in B5, B6.
      apply (fits_eq (ss_byrow a) (ss_n a)) in H6; auto. apply (fits_eq (ss_byrow a) (ss_n a)) in H7; auto.
      split; [congruence|]. split; [congruence|]. discriminate.
  - intros [H1 [H2 [H3 [H4 [H5 H6]]]]]. split; [split; [auto|]|].
    + destruct (ss_cent a); auto. destruct (ss_mean a) as [m|]; auto. rewrite <- H5 by discriminate. now apply coef_eq_vc.
    + destruct (is_none (ss_scaling a)); auto. destruct (ss_scale a) as [c|]; auto. destruct H6 as [H6 [H7 H8]]; [discriminate|]. rewrite <- H6, <- H7.
      destruct (ss_shift a); [|congruence]. now rewrite !coef_refl.
Qed.
Lemma trained_parts s : ss_reach s -> ss_is_trained s = true ->
  (ss_mean s = None -> ss_cent s = false) /\ (ss_scale s = None \/ ss_shift s = None -> ss_scaling s = None).
Proof.
  intros R H. unfold ss_is_trained in H. apply negb_true_iff, orb_false_iff in H. destruct H as [H1 H2]. split.
  - intros E. rewrite E in H1. now rewrite andb_true_r in H1.
  - intros E. destruct (ss_scaling s); auto. simpl in H2. apply orb_false_iff in H2. destruct H2 as [H2 H3]. destruct E as [E|E]; rewrite E in *; discriminate.
Qed.
Lemma ss_equal_iff a b : ss_reach a -> ss_reach b -> ss_is_trained a = true -> ss_eqb a b = true <-> same_but_name a b.
Proof.
  intros Ra Rb T. rewrite ss_eqb_true by auto. destruct (trained_parts a Ra T) as [T1 T2].
  pose proof (ss_reach_inv a Ra) as [_ A2 A3 A4 A5 A6]. pose proof (ss_reach_inv b Rb) as [_ B2 B3 B4 B5 B6]. unfold same_but_name. split.
  - intros [H1 [H2 [H3 [H4 [H5 H6]]]]]. split; [auto|]. split; [auto|]. split; [auto|]. split; [auto|]. split.
    + destruct (ss_mean a) as [m|] eqn:E. { symmetry. apply H5. discriminate. } apply B2. rewrite <- H1. now apply T1.
    + destruct (ss_scale a) as [c|] eqn:E. { destruct H6 as [H6 [H7 _]]; [discriminate|]. split; congruence. }
      specialize (T2 (or_introl eq_refl)). destruct (A4 T2) as [_ ->]. rewrite H2 in T2. now apply B4.
  - intros [H1 [H2 [H3 [H4 [H5 [H6 H7]]]]]]. do 4 (split; [congruence|]). split; [intros; congruence|].
    intros N. split; [congruence|]. split; [congruence|]. intros Q. apply N. apply A4. apply T2. auto.
Qed.
Lemma same_alike a b : same_but_name a b -> alike (TSS a) (TSS b).
Proof.
  destruct a, b. intros [H1 [H2 [H3 [H4 [H5 [H6 H7]]]]]]. simpl in *. subst. unfold alike. repeat split; reflexivity.
Qed.
Lemma ss_equal_alike a b : ss_reach a -> ss_reach b -> ss_is_trained a = true -> ss_eqb a b = true -> alike (TSS a) (TSS b).
Proof. intros Ra Rb T H. apply same_alike. now apply ss_equal_iff. Qed.
Lemma ss_refl a : ss_reach a -> ss_eqb a a = true <-> (ss_scale a <> None -> ss_shift a <> None).
Proof. intros R. rewrite ss_eqb_true by auto. tauto. Qed.
Lemma trained_same a b : same_but_name a b -> ss_is_trained b = ss_is_trained a.
Proof. destruct a, b. intros [H1 [H2 [H3 [H4 [H5 [H6 H7]]]]]]. simpl in *. subst. reflexivity. Qed.
Lemma ss_sym a b : ss_reach a -> ss_reach b -> ss_is_trained a = true -> ss_is_trained b = true -> ss_eqb a b = ss_eqb b a.
Proof.
  intros Ra Rb Ta Tb. destruct (ss_eqb a b) eqn:E.
  - apply ss_equal_iff in E; auto. symmetry. apply ss_equal_iff; auto. unfold same_but_name in *. intuition congruence.
  - destruct (ss_eqb b a) eqn:E'; auto. apply ss_equal_iff in E'; auto. assert (K : ss_eqb a b = true); [|congruence]. apply ss_equal_iff; auto. unfold same_but_name in *. intuition congruence.
Qed.
Lemma ss_trans a b c : ss_reach a -> ss_reach b -> ss_reach c -> ss_eqb a b = true -> ss_eqb b c = true -> ss_eqb a c = true.
Proof.
  intros Ra Rb Rc. rewrite !ss_eqb_true by auto. intros [H1 [H2 [H3 [H4 [H5 H6]]]]] [K1 [K2 [K3 [K4 [K5 K6]]]]].
  do 4 (split; [congruence|]). split.
  - intros N. rewrite (H5 N). apply K5. now rewrite <- (H5 N).
  - intros N. destruct (H6 N) as [E1 [E2 E3]]. rewrite E1, E2. apply K6. now rewrite <- E1.
Qed.
Lemma fitted_equal cent sc byrow nm nm' s s' a t t' :
  ss_init cent sc byrow nm = Ok s -> ss_init cent sc byrow nm' = Ok s' -> fit (TSS s) a = Ok t -> fit (TSS s') a = Ok t' ->
  exists u u', t = TSS u /\ t' = TSS u' /\ ss_reach u /\ ss_reach u' /\ ss_is_trained u = true /\ ss_eqb u u' = true /\ ss_eqb u' u = true.
Proof.
  intros I I' F F'.
  assert (K : forall s t, fit (TSS s) a = Ok t -> exists u p, ss_fit s a = Ok (u, p) /\ t = TSS u).
  { clear. intros s t F. unfold fit, fit_transform in F. cbn [fit_from fit_prog] in F. destruct (ss_fit s a) as [[u p]|e] eqn:E; cbn [bind] in F; [|discriminate].
    destruct (exec p a) as [b|e]; cbn [bind fst] in F; [|discriminate]. inversion F. eauto. }
  destruct (K _ _ F) as [u [p [E ->]]]. destruct (K _ _ F') as [u' [p' [E' ->]]]. exists u, u'.
  assert (R : ss_reach u) by exact (sr_fit s a u p (sr_new _ _ _ _ _ I) E). assert (R' : ss_reach u') by exact (sr_fit s' a u' p' (sr_new _ _ _ _ _ I') E').
  assert (S : same_but_name u u').
  { unfold ss_init in I, I'. destruct (byrow && _); [discriminate|]. inversion I; inversion I'; subst. clear I I' K F F' R R'.
    unfold ss_fit in E, E'. destruct a as [|Y]; [discriminate|]. cbn [ss_cent ss_scaling ss_byrow ss_mean ss_scale ss_shift] in E, E'.
    destruct (if cent then _ else _) as [[mean p1]|e]; cbn [bind] in E, E'; [|discriminate].
    destruct (exec p1 (M Y)) as [Y1|e]; cbn [bind] in E, E'; [|discriminate].
    destruct (match sc with None => _ | Some _ => _ end) as [[[al be] p3]|e]; cbn [bind] in E, E'; [|discriminate].
    inversion E; inversion E'; subst. repeat split; reflexivity. }
  assert (T : ss_is_trained u = true).
  { pose proof (ss_fit_ok _ _ _ _ E) as [_ [[N [Hm Hs]] _]]. unfold ss_is_trained. apply negb_true_iff, orb_false_iff. split.
    - destruct (ss_cent u); auto. destruct (Hm eq_refl) as [m [-> _]]. reflexivity.
    - destruct (ss_scaling u); auto. specialize (Hs ltac:(discriminate)). destruct (ss_byrow u).
      + destruct Hs as [al [be [-> [-> _]]]]. reflexivity.
      + destruct Hs as [al [be [-> [-> _]]]]. reflexivity. }
  repeat split; auto.
  - apply ss_equal_iff; auto.
  - apply ss_equal_iff; auto. + now rewrite (trained_same u u'). + unfold same_but_name in *. intuition congruence.
Qed.
(* a transformer that only knows its dimension equals every transformer with its options *)
Lemma ss_sym_refuted : exists a b, ss_reach a /\ ss_reach b /\ ss_eqb a b = true /\ ss_eqb b a = false /\
  (forall x, transform (TSS a) x = Err AttributeError) /\ transform (TSS b) (V [5; 6]%R) = Ok (V [3; 1]%R).
Proof.
  set (s0 := {| ss_cent := true; ss_scaling := None; ss_byrow := false; ss_name := None; ss_n := None; ss_mean := None; ss_scale := None; ss_shift := None |}).
  assert (R0 : ss_reach s0) by (apply (sr_new true None false None); reflexivity).
  exists (ss_set s0 None (Some 2)), (ss_put (Some 2) (Some [2; 5]%R) None None s0).
  assert (R1 : ss_reach (ss_set s0 None (Some 2))) by (apply (sr_dim s0 (Some 2)); auto).
  assert (R2 : ss_reach (ss_put (Some 2) (Some [2; 5]%R) None None s0)) by (apply (sr_mean s0 [2; 5]%R); auto).
  split; [auto|]. split; [auto|]. split; [reflexivity|]. split; [reflexivity|]. split; [reflexivity|].
  cbn. unfold map2. cbn. f_equal. f_equal. f_equal; [lra|]. f_equal. lra.
Qed.

(* ---- TransformerMulti ---- *)
Lemma members_cons b bs t l t' l' : members_eqb (b :: bs) (t :: l) (t' :: l') = tf_eqb b t t' && members_eqb bs l l'.
Proof. reflexivity. Qed.
Lemma alike_refl t : alike t t. Proof. repeat split; reflexivity. Qed.
Lemma tf_eqb_alike b t t' : trained_ss t -> trained_ss t' -> (b = true -> t = t') -> tf_eqb b t t' = true -> alike t t'.
Proof.
  intros T T' O H. destruct t as [r nm|c n nm|s|n nm|l nm|l], t' as [r' nm'|c' n' nm'|s'|n' nm'|l' nm'|l']; simpl in H; try discriminate;
    try (rewrite (O H); apply alike_refl).
  destruct (T s eq_refl), (T' s' eq_refl). now apply ss_equal_alike.
Qed.
Lemma members_alike same l : forall l', Forall trained_ss l -> Forall trained_ss l' -> one_object same l l' -> members_eqb same l l' = true -> Forall2 alike l l'.
Proof.
  revert same. induction l as [|t l IH]; intros same [|t' l'] F F' O H; try (destruct same; discriminate); [constructor|].
  destruct same as [|b bs]; [discriminate|]. rewrite members_cons in H. apply andb_true_iff in H. destruct H as [H1 H2].
  inversion F; inversion F'; subst. constructor.
  - eapply tf_eqb_alike; eauto. intros ->. apply (O 0); reflexivity.
  - eapply IH; eauto. intros i u u'. apply (O (S i)).
Qed.
Lemma zipM_ext {T X Y} (f g : T -> X -> res Y) l l' : Forall2 (fun t t' => forall x, g t' x = f t x) l l' -> forall qs, zipM g l' qs = zipM f l qs.
Proof. induction 1; intros [|q qs]; simpl; auto. rewrite H. destruct (f x q); cbn [bind]; auto. now rewrite IHForall2. Qed.
Lemma F2_map {A B} (R : A -> A -> Prop) (f : A -> B) l l' : Forall2 R l l' -> (forall a b, R a b -> f b = f a) -> map f l' = map f l.
Proof. induction 1; intros K; simpl; auto. rewrite (K _ _ H), IHForall2; auto. Qed.
Lemma F2_sub {A B} (P Q : A -> B -> Prop) l l' : Forall2 P l l' -> (forall a b, P a b -> Q a b) -> Forall2 Q l l'.
Proof. induction 1; constructor; auto. Qed.
Lemma multi_dim l : tf_dim (TMulti l) = match allsome (variable_sizes l) with Some ns => Some (lsumn ns) | None => None end.
Proof.
  induction l as [|t l IH]; [reflexivity|]. change (tf_dim (TMulti (t :: l))) with (match tf_dim t, tf_dim (TMulti l) with Some a, Some b => Some (a + b) | _, _ => None end).
  rewrite IH. unfold variable_sizes. cbn [map allsome]. destruct (tf_dim t), (allsome (map tf_dim l)); reflexivity.
Qed.
Lemma multi_alike same l l' : Forall trained_ss l -> Forall trained_ss l' -> one_object same l l' -> multi_eqb same l l' = true -> alike (TMulti l) (TMulti l').
Proof.
  intros F F' O H. apply andb_true_iff in H. destruct H as [_ H]. apply members_alike in H; auto.
  assert (S : variable_sizes l' = variable_sizes l) by (apply (F2_map alike); auto; intros a b K; apply K).
  assert (Z1 : forall qs, zipM transform l' qs = zipM transform l qs) by (apply zipM_ext; eapply F2_sub; [exact H|intros a b K; apply K]).
  assert (Z2 : forall qs, zipM transform_ddts l' qs = zipM transform_ddts l qs) by (apply zipM_ext; eapply F2_sub; [exact H|intros a b K; apply K]).
  assert (Z3 : forall locs qs, zipM (fun t => inverse_transform t locs) l' qs = zipM (fun t => inverse_transform t locs) l qs).
  { intros locs. apply (zipM_ext (fun t => inverse_transform t locs)). eapply F2_sub; [exact H|]. intros a b K. apply K. }
  repeat split.
  - intros a. cbn [transform]. unfold multi_apply. rewrite S. destruct (multi_split _ a); cbn [bind]; auto. now rewrite Z1.
  - intros a. cbn [transform_ddts]. unfold multi_apply. rewrite S. destruct (multi_split _ a); cbn [bind]; auto. now rewrite Z2.
  - intros locs a. cbn [inverse_transform]. rewrite S. destruct (multi_split_locs _ locs a); cbn [bind]; auto. now rewrite Z3.
  - now rewrite !multi_dim, S.
Qed.
(* a reloaded TransformerMulti has new members in the same states *)
Lemma multi_new l : Forall (fun t => forall s, t = TSS s -> ss_reach s) l ->
  multi_eqb (repeat false (length l)) l l = true <-> Forall (fun t => exists s, t = TSS s /\ (ss_scale s <> None -> ss_shift s <> None)) l.
Proof.
  intros F. unfold multi_eqb. rewrite Nat.eqb_refl. cbn [andb]. induction F as [|t l H F IH]; [split; [constructor|reflexivity]|].
  cbn [length repeat members_eqb]. rewrite andb_true_iff, IH. split.
  - intros [H1 H2]. constructor; auto. destruct t as [r nm|c n nm|s|n nm|l0 nm|l0]; simpl in H1; try discriminate. exists s. split; auto. apply ss_refl; auto.
  - intros K. inversion K as [|? ? [s [-> E]] K']; subst. split; auto. cbn [tf_eqb]. apply ss_refl; auto.
Qed.
Lemma plain_reach t : plain_tf t -> forall s, t = TSS s -> ss_reach s.
Proof. intros H s ->. apply H. Qed.
Lemma multi_reloaded I l : l <> [] -> Forall plain_tf l -> Forall (fun t => tf_name t <> None) l ->
  exists l', comes_back I (SvTf (TMulti l)) (tmulti_load (Each (map tf_class l))) (TMulti l') /\
  (multi_eqb (repeat false (length l)) l l' = true <-> forall t, In t l -> exists s, t = TSS s).
Proof.
  intros H1 H2 H3. exists l. split; [apply multi_back; auto|]. rewrite multi_new.
  - rewrite Forall_forall in *. split.
    + intros K t Ht. destruct (K t Ht) as [s [-> _]]. eauto.
    + intros K t Ht. destruct (K t Ht) as [s ->]. exists s. split; auto. destruct (H2 _ Ht) as [_ [_ [_ E]]]. intros N Q. apply N. now apply E.
  - eapply Forall_impl; [|exact H2]. intros t K s E. eapply plain_reach; eauto.
Qed.
Lemma leaf_reloaded I s : plain_tf (TSS s) -> exists s', comes_back I (SvTf (TSS s)) (tf_load1 KSS) (TSS s') /\ ss_eqb s s' = true /\ ss_eqb s' s = true.
Proof.
  intros H. exists s. split; [apply (leaf_back I (TSS s) H)|]. destruct H as [H [_ [_ E]]].
  assert (K : ss_eqb s s = true) by (apply ss_refl; auto; intros N Q; apply N; now apply E). auto.
Qed.

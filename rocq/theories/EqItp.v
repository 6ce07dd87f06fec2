(* EqItp.v -- proofs about the == of interpolated operators. *)
From Verif Require Import MatAlg LinAlg OpsProofs AffProofs InterpProofs ItpProofs EqProofs EqBasis.
From Verif Require Import SpecEq.
#[local] Open Scope nat_scope.

Lemma lall_true {A} (f : A -> A -> bool) l : forall l', lall f l l' = true <-> Forall2 (fun a b => f a b = true) l l'.
Proof.
  induction l as [|a l IH]; intros [|b l']; cbn [lall]; try (split; [discriminate|intros K; inversion K]). { split; constructor. }
  rewrite andb_true_iff, IH. split. - intros [H1 H2]. now constructor. - intros K. now inversion K.
Qed.
Lemma pval_eq p q : pval_eqb p q = true <-> p = q.
Proof. destruct p, q; cbn [pval_eqb]; try (split; discriminate). - rewrite reqb_eq. split; congruence. - rewrite veqb_eq. split; congruence. Qed.
Lemma lall_pval l l' : lall pval_eqb l l' = true <-> l = l'.
Proof.
  rewrite lall_true. split.
  - induction 1; auto. apply pval_eq in H. congruence.
  - intros <-. induction l; constructor; auto. now apply pval_eq.
Qed.
(* entries of the same shape, entrywise close *)
Lemma close_ops l l' : lall (fun o o' => (nrows (entries2 o) =? nrows (entries2 o')) && (ncols (entries2 o) =? ncols (entries2 o')) && allclose (entries2 o) (entries2 o')) l l' = true
  <-> Forall2 close_op l l'.
Proof.
  rewrite lall_true. assert (K : forall o o', (nrows (entries2 o) =? nrows (entries2 o')) && (ncols (entries2 o) =? ncols (entries2 o')) && allclose (entries2 o) (entries2 o') = true <-> close_op o o').
  { intros o o'. unfold close_op. rewrite !andb_true_iff, !Nat.eqb_eq, allclose_true. tauto. }
  split; induction 1; constructor; auto; now apply K.
Qed.
Lemma i_equal_iff same a b : is_class same a b -> i_eqb same a b = true <->
  i_cls a = i_cls b /\ i_params a = i_params b /\ i_iclass a = i_iclass b /\
  match i_entries a, i_entries b with None, None => True | Some l, Some l' => Forall2 close_op l l' | _, _ => False end.
Proof.
  intros HI. unfold is_class in HI. unfold i_eqb. rewrite !andb_true_iff, cls_eqb_eq, HI.
  assert (P : match i_params a, i_params b with None, None => true | Some l, Some l' => lall pval_eqb l l' | _, _ => false end = true <-> i_params a = i_params b).
  { destruct (i_params a), (i_params b); try (split; [discriminate|discriminate]); [|tauto]. rewrite lall_pval. split; congruence. }
  rewrite P. destruct (i_entries a), (i_entries b); try (split; [intros [_ H]; discriminate|intros [_ [_ [_ []]]]]); [|tauto].
  rewrite close_ops. tauto.
Qed.
Lemma close_op_refl o : close_op o o.
Proof. split; auto. split; auto. intros. apply close_refl. Qed.
Lemma i_refl t : i_eqb true t t = true.
Proof.
  apply i_equal_iff; [split; auto|]. repeat (split; [reflexivity|]). destruct (i_entries t) as [l|]; auto. induction l; constructor; auto. apply close_op_refl.
Qed.
(* equal trained operators agree at the training parameters, up to the tolerance *)
Lemma i_equal_at cubic linearnd r m a b p ps ops ops' C : 0 < r ->
  family r m (i_cls a) ops -> family r m (i_cls a) ops' ->
  i_params a = Some ps -> i_pdim a = Some p -> i_iclass a = Some C -> i_cls b = i_cls a -> i_params b = i_params a -> i_pdim b = i_pdim a -> i_iclass b = i_iclass a ->
  interpolates C ps (PS 0) -> length ops = length ps -> length ops' = length ps -> Forall (fun x => plen x = p /\ (p = 1 -> is_scalar x = true)) ps ->
  exists a' b', i_set cubic linearnd a (map entries2 ops) = (a', Ok tt) /\ i_set cubic linearnd b (map entries2 ops') = (b', Ok tt) /\
  (i_eqb true a' b' = true <-> forall i, i < length ps -> exists o o', i_evaluate a' (nth i ps (PS 0)) = Ok o /\ i_evaluate b' (nth i ps (PS 0)) = Ok o' /\ close_op o o').
Proof.
  intros Hr F F' Hp Hd HC E1 E2 E3 E4 HX L L' HP.
  destruct (i_set_user cubic linearnd r m a p ps ops C Hr F Hp Hd HC HX L HP) as (a' & S & A1 & A2 & A3 & A4).
  destruct (i_set_user cubic linearnd r m b p ps ops' C Hr ltac:(now rewrite E1) ltac:(congruence) ltac:(congruence) ltac:(congruence) HX L' HP) as (b' & S' & B1 & B2 & B3 & B4).
  exists a', b'. split; auto. split; auto.
  assert (K : forall t t' Es, i_set cubic linearnd t Es = (t', Ok tt) -> i_iclass t = Some C -> i_iclass t' = Some C).
  { clear. intros t t' Es H HC. unfold i_set in H. destruct (i_params t) as [ps|]; [|discriminate]. destruct (negb (same_shapes Es)); [discriminate|]. destruct (negb _); [discriminate|].
    destruct (mapM _ _); [|discriminate]. rewrite HC in H. unfold i_set_interp in H. cbn [i_entries i_params] in H.
    destruct (C _ _) in H; inversion H; subst; auto. }
  rewrite i_equal_iff by (split; auto; intros _; rewrite (K _ _ _ S HC), (K _ _ _ S' ltac:(congruence)); auto). rewrite A1, B1, A2, B2, A3, B3, (K _ _ _ S HC), (K _ _ _ S' ltac:(congruence)). split.
  - intros [_ [_ [_ H]]] i Hi. exists (nth i ops (OConst [])), (nth i ops' (OConst [])). split; auto. split; auto. apply Forall2_nth; auto. lia.
  - intros H. split; [congruence|]. split; [congruence|]. split; auto.
    assert (G : forall l l', length l = length l' -> (forall i, i < length l -> close_op (nth i l (OConst [])) (nth i l' (OConst []))) -> Forall2 close_op l l').
    { clear. induction l as [|x l IH]; intros [|y l'] E H; try discriminate; constructor. - apply (H 0). cbn. lia. - apply IH. + cbn in E. lia. + intros i Hi. apply (H (S i)). cbn. lia. }
    apply G; [congruence|]. intros i Hi. rewrite L in Hi. destruct (H i Hi) as (o & o' & Q1 & Q2 & Q3). rewrite A4 in Q1 by auto. rewrite B4 in Q2 by auto. congruence.
Qed.
(* set_training_parameters: a second application changes nothing *)
Lemma set_params_ok c ic ps t : i_set_params (i_new c ic) ps = Ok t ->
  i_cls t = c /\ i_entries t = None /\ i_interp t = None /\ i_iclass t = ic /\
  exists ps', i_params t = Some ps' /\ forall c' ic', exists t', i_set_params (i_new c' ic') ps' = Ok t' /\ i_params t' = Some ps' /\ i_cls t' = c' /\ i_iclass t' = ic'.
Proof.
  unfold i_set_params. cbn [i_new i_interp]. destruct ps as [|p0 ps]; [discriminate|]. destruct (negb _) eqn:E; [discriminate|]. intros H. inversion H; subst. clear H. cbn.
  do 4 (split; [reflexivity|]). eexists. split; [reflexivity|]. intros c' ic'. apply negb_false_iff in E. destruct (plen p0 =? 1) eqn:Q.
  - cbn [map]. cbn [pndim plen]. eexists. split.
    + replace (forallb _ _) with true; [reflexivity|]. symmetry. apply forallb_forall. intros p [<-|Hp]; [reflexivity|]. apply in_map_iff in Hp. destruct Hp as [x [<- _]]. reflexivity.
    + cbn. repeat split. f_equal. f_equal. rewrite map_map. reflexivity.
  - rewrite E. cbn [negb]. rewrite Q. eexists. split; [reflexivity|]. repeat split.
Qed.
Lemma i_set_ok cubic linearnd r m t ps ops t' : 0 < r -> family r m (i_cls t) ops -> i_params t = Some ps -> i_set cubic linearnd t (map entries2 ops) = (t', Ok tt) ->
  i_cls t' = i_cls t /\ i_params t' = Some ps /\ i_entries t' = Some ops /\ exists C, i_iclass t' = Some C /\ (forall C', i_iclass t = Some C' -> C = C').
Proof.
  intros Hr F Hp H. unfold i_set in H. rewrite Hp in H. destruct (negb (same_shapes _)); [discriminate|]. destruct (negb _); [discriminate|].
  rewrite (family_construct r m) in H by auto. unfold i_set_interp in H. cbn [i_entries i_params i_cls i_pdim] in H.
  destruct (match i_iclass t with Some _ => _ | None => _ end) as [[C ps'] es'] eqn:Q. destruct (C ps' es'); [|discriminate]. inversion H; subst. cbn. repeat split; auto.
  exists C. split; auto. intros C' E. rewrite E in Q. congruence.
Qed.
Lemma i_copy_equal same cubic linearnd r m c ps ops ic t t' : is_class same t t' -> 0 < r -> family r m c ops ->
  i_init cubic linearnd c ps (map entries2 ops) ic = Ok t -> i_copy cubic linearnd t = Ok t' -> i_eqb same t t' = true /\ i_eqb same t' t = true.
Proof.
  intros HI Hr F H HC. unfold i_init in H. destruct (i_set_params (i_new c ic) ps) as [t0|e] eqn:E0; [|discriminate]. cbn [bind] in H.
  destruct (set_params_ok _ _ _ _ E0) as [C0 [_ [_ [_ [ps' [P0 K]]]]]]. destruct (i_set cubic linearnd t0 (map entries2 ops)) as [t1 [[]|e]] eqn:E1; [|discriminate]. inversion H; subst t1. clear H.
  apply (i_set_ok cubic linearnd r m t0 ps' ops) in E1; auto. 2:{ now rewrite C0. }
  destruct E1 as [D1 [D2 [D3 [C [D4 _]]]]]. unfold i_copy in HC. rewrite D2, D3, D4 in HC. destruct (K (i_cls t) (Some C)) as [u [U1 [U2 [U3 U4]]]]. rewrite U1 in HC. cbn [bind] in HC.
  destruct (i_set cubic linearnd u (map entries2 ops)) as [t2 [[]|e]] eqn:E2; [|discriminate]. inversion HC; subst t2.
  apply (i_set_ok cubic linearnd r m u ps' ops) in E2; auto. 2:{ now rewrite U3, D1, C0. }
  destruct E2 as [G1 [G2 [G3 [C' [G4 G5]]]]]. specialize (G5 C U4). subst C'.
  assert (RR : Forall2 close_op ops ops) by (clear; induction ops; constructor; auto; apply close_op_refl).
  split; apply i_equal_iff; auto; try (split; [intros Q; symmetry; now apply HI|intros Q; apply HI; congruence]); rewrite D3, G3; split; try congruence; split; try congruence; split; auto; congruence.
Qed.
(* the interpolator itself is not compared *)
Lemma i_stale cubic linearnd r m c xs ops ops' : 0 < r ->
  (forall xs, 2 <= length xs -> strictly_inc xs -> interpolates cubic (map PS xs) (PS 0)) ->
  (forall xs es, ~ strictly_inc xs -> cubic (map PS xs) es = Err ValueError) ->
  family r m c ops -> family r m c ops' -> NoDup xs -> 2 <= length xs -> ~ strictly_inc xs -> length ops = length xs -> length ops' = length xs ->
  exists t t' u, i_init cubic linearnd c (map PS xs) (map entries2 ops) None = Ok t /\ i_set cubic linearnd t (map entries2 ops') = (t', Err ValueError) /\
   i_init cubic linearnd c (map PS xs) (map entries2 ops') None = Ok u /\ i_eqb true t' u = true /\
   forall i, i < length xs -> i_evaluate t' (PS (vget xs i)) = Ok (nth i ops (OConst [])) /\ i_evaluate u (PS (vget xs i)) = Ok (nth i ops' (OConst [])).
Proof.
  intros Hr Hc Hx HF HF' HN H2 HS HL HL'.
  destruct (i_init_default cubic linearnd Hc r m c xs ops Hr HF HN H2 HL) as [t [E1 [E2 [E3 [E4 [E5 [E6 E7]]]]]]].
  destruct (i_init_default cubic linearnd Hc r m c xs ops' Hr HF' HN H2 HL') as [u [U1 [U2 [U3 [U4 [U5 [U6 U7]]]]]]].
  exists t. eexists. exists u. split; auto. split.
  - apply (i_set_raises cubic linearnd r m t (map PS xs) ops' cubic); auto. + rewrite E4; auto. + rewrite map_length; auto.
  - split; auto. split.
    + apply i_equal_iff. { split; auto. intros _. cbn. rewrite U5. auto. } cbn. rewrite U2, U3, U4, U5. repeat split; auto. clear. induction ops'; constructor; auto. apply close_op_refl.
    + intros i Hi. split; auto. specialize (E7 i Hi). unfold i_evaluate in *. rewrite E2 in E7. cbn [i_entries i_interp i_pdim i_cls]. exact E7.
Qed.

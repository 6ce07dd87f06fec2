(* RomFit.v -- what fit() hands to the model (C52). *)
From Verif Require Import LinAlg MatAlg BlockAlg PreProofs PreLocs PreFinal MonoPredict AffProofs BasisProofs BasisMultiProofs SpecRom RomParts RomProofs.
From Coq Require Import Lra Lia Psatz.
#[local] Open Scope nat_scope.

Notation dfl := (V []).
Lemma mapM_index {A B} (f : A -> res B) d d' l l' : mapM f l = Ok l' -> length l' = length l /\ forall i, i < length l -> f (nth i l d) = Ok (nth i l' d').
Proof.
  intros E. apply AffProofs.mapM_Forall2 in E. split; [symmetry; exact (F2_length _ _ _ E)|]. intros i Hi. now apply (Forall2_nth_iff (fun a b => f a = Ok b) l l' d d' E).
Qed.
Lemma index_mapM {A B} (f : A -> res B) d d' l l' : length l' = length l -> (forall i, i < length l -> f (nth i l d) = Ok (nth i l' d')) -> mapM f l = Ok l'.
Proof.
  intros HL H. apply AffProofs.mapM_Forall2. revert l' HL H. induction l as [|a l IH]; intros [|b l'] HL H; try discriminate; constructor.
  - apply (H 0). cbn. lia. - apply IH. { now injection HL. } intros i Hi. apply (H (S i)). cbn. lia.
Qed.
Lemma index_Forall2 {A B} (R : A -> B -> Prop) d d' l l' : length l' = length l -> (forall i, i < length l -> R (nth i l d) (nth i l' d')) -> Forall2 R l l'.
Proof.
  revert l'. induction l as [|a l IH]; intros [|b l'] HL H; try discriminate; constructor.
  - apply (H 0). cbn. lia. - apply IH. { now injection HL. } intros i Hi. apply (H (S i)). cbn. lia.
Qed.
(* two optional lists, one relation per index *)
Definition rel_opt (N : nat) (X Y : option (list arr)) (R : nat -> arr -> arr -> Prop) : Prop :=
  match X, Y with
  | None, None => True
  | Some l, Some l' => length l' = N /\ forall i, i < N -> R i (nth i l dfl) (nth i l' dfl)
  | _, _ => False
  end.
Lemma rel_opt_id N X (R : nat -> arr -> arr -> Prop) : (forall l, X = Some l -> length l = N) -> (forall i a, R i a a) -> rel_opt N X X R.
Proof. destruct X as [l|]; cbn; auto. Qed.
Lemma train_lift_ok P cont Qs Zs q1 z1 : same_length Qs Zs -> train_lift P cont Qs Zs = Ok (q1, z1) ->
  length q1 = length Qs /\ (forall i, i < length Qs -> via (rp_lift P) lf_lift (nth i Qs dfl) (nth i q1 dfl)) /\
  rel_opt (length Qs) Zs z1 (fun i z z' => if cont then via (rp_lift P) (fun f => lf_ddts f (nth i Qs dfl)) z z' else via (rp_lift P) lf_lift z z').
Proof.
  intros HL E. unfold train_lift in E. destruct (rp_lift P) as [f|]; cbn [via].
  2:{ injection E as <- <-. split; auto. split; auto. apply rel_opt_id; auto. intros; now destruct cont. }
  destruct (opt_map _ Zs) as [zs|] eqn:Ez; [|discriminate]. cbn [bind] in E. destruct (mapM (lf_lift f) Qs) as [qs|] eqn:Eq; [|discriminate]. cbn [bind] in E. injection E as <- <-.
  destruct (mapM_index _ dfl dfl _ _ Eq) as [L1 H1]. split; auto. split; auto. destruct Zs as [Zl|]; cbn [opt_map] in Ez; [|now injection Ez as <-].
  specialize (HL Zl eq_refl). destruct cont.
  - destruct (mapM _ (combine Qs Zl)) as [zl|] eqn:Em; [|discriminate]. injection Ez as <-. cbn [rel_opt]. destruct (mapM_index _ (dfl, dfl) dfl _ _ Em) as [L2 H2]. rewrite combine_length in *.
    split; [lia|]. intros i Hi. specialize (H2 i ltac:(lia)). rewrite combine_nth in H2 by auto. exact H2.
  - destruct (mapM _ Zl) as [zl|] eqn:Em; [|discriminate]. injection Ez as <-. cbn [rel_opt]. destruct (mapM_index _ dfl dfl _ _ Em) as [L2 H2]. split; [lia|]. intros i Hi. apply H2. lia.
Qed.
Lemma opt_mapM_ok N (f : arr -> res arr) X Y : (forall l, X = Some l -> length l = N) -> opt_map (mapM f) X = Ok Y -> rel_opt N X Y (fun _ z z' => f z = Ok z').
Proof.
  intros HL E. destruct X as [l|]; cbn [opt_map] in E; [|now injection E as <-]. destruct (mapM f l) as [l'|] eqn:Em; [|discriminate]. injection E as <-.
  destruct (mapM_index _ dfl dfl _ _ Em) as [L2 H2]. specialize (HL l eq_refl). cbn [rel_opt]. split; [lia|]. intros i Hi. apply H2. lia.
Qed.
Lemma rel_opt_len N X Y R : rel_opt N X Y R -> forall l, Y = Some l -> length l = N.
Proof. destruct X, Y; cbn; try tauto; try congruence. intros [H _] l' E. injection E as <-. auto. Qed.
Lemma train_transform_ok P cont ft Qs Zs P2 q2 z2 : (forall l, Zs = Some l -> length l = length Qs) -> train_transform P cont ft Qs Zs = Ok (P2, q2, z2) ->
  rp_lift P2 = rp_lift P /\ rp_basis P2 = rp_basis P /\ length q2 = length Qs /\ (forall i, i < length Qs -> via (rp_tf P2) transform (nth i Qs dfl) (nth i q2 dfl)) /\
  rel_opt (length Qs) Zs z2 (fun i z z' => via (rp_tf P2) (if cont then transform_ddts else transform) z z') /\
  match rp_tf P, rp_tf P2 with
  | None, None => True
  | Some t, Some t' => if ft then exists H b, hstack_arr Qs = Ok H /\ fit_transform t H = Ok (t', b) else t' = t
  | _, _ => False
  end.
Proof.
  intros HL E. unfold train_transform in E. destruct (rp_tf P) as [t|] eqn:Et.
  2:{ injection E as <- <- <-. rewrite Et. cbn [via]. repeat split; auto. now apply rel_opt_id. }
  destruct (if ft then _ else Ok t) as [t'|] eqn:E1; [|discriminate]. cbn [bind] in E. destruct (mapM (transform t') Qs) as [qs|] eqn:E2; [|discriminate]. cbn [bind] in E.
  destruct (opt_map _ Zs) as [zs|] eqn:E3; [|discriminate]. injection E as <- <- <-. cbn [rp_lift rp_tf rp_basis via]. destruct (mapM_index _ dfl dfl _ _ E2) as [L1 H1]. repeat split; auto.
  - pose proof (opt_mapM_ok (length Qs) _ _ _ HL E3) as H. destruct Zs, zs; cbn [rel_opt] in *; auto. destruct cont; auto.
  - destruct ft; [|now injection E1]. destruct (hstack_arr Qs) as [H|]; [|discriminate]. cbn [bind] in E1. destruct (fit_transform t H) as [[t2 b]|] eqn:E4; [|discriminate]. injection E1 as <-. eauto.
Qed.
Lemma train_compress_ok P fb Qs Zs P2 q2 z2 : (forall l, Zs = Some l -> length l = length Qs) -> train_compress P fb Qs Zs = Ok (P2, q2, z2) ->
  rp_lift P2 = rp_lift P /\ rp_tf P2 = rp_tf P /\ length q2 = length Qs /\ (forall i, i < length Qs -> via (rp_basis P2) rb_compress (nth i Qs dfl) (nth i q2 dfl)) /\
  rel_opt (length Qs) Zs z2 (fun i z z' => via (rp_basis P2) rb_compress z z') /\
  match rp_basis P, rp_basis P2 with
  | None, None => True
  | Some b, Some b' => match fb with Some X => exists H, hstack_arr Qs = Ok H /\ rb_fit X b H = Ok b' | None => b' = b end
  | _, _ => False
  end.
Proof.
  intros HL E. unfold train_compress in E. destruct (rp_basis P) as [b|] eqn:Eb.
  2:{ injection E as <- <- <-. rewrite Eb. cbn [via]. repeat split; auto. now apply rel_opt_id. }
  destruct (match fb with Some X => _ | None => Ok b end) as [b'|] eqn:E1; [|discriminate]. cbn [bind] in E. destruct (mapM (rb_compress b') Qs) as [qs|] eqn:E2; [|discriminate]. cbn [bind] in E.
  destruct (opt_map _ Zs) as [zs|] eqn:E3; [|discriminate]. injection E as <- <- <-. cbn [rp_lift rp_tf rp_basis via]. destruct (mapM_index _ dfl dfl _ _ E2) as [L1 H1]. repeat split; auto.
  - exact (opt_mapM_ok (length Qs) _ _ _ HL E3).
  - destruct fb as [X|]; [|now injection E1]. destruct (hstack_arr Qs) as [H|]; [|discriminate]. cbn [bind] in E1. eauto.
Qed.
(* the encoded trajectories *)
Lemma process_encodes P cont ft fb Qs Zs q1 z1 P2 q2 z2 P3 q3 z3 :
  same_length Qs Zs -> train_lift P cont Qs Zs = Ok (q1, z1) -> train_transform P cont ft q1 z1 = Ok (P2, q2, z2) -> train_compress P2 fb q2 z2 = Ok (P3, q3, z3) ->
  fitted_on ft fb Qs P P3 /\ length q3 = length Qs /\ (forall l, z3 = Some l -> length l = length Qs) /\ (z3 = None <-> Zs = None) /\
  forall i, i < length Qs -> encode P3 cont (nth i Qs dfl) (nth_opt Zs i) = Ok (nth i q3 dfl, nth_opt z3 i).
Proof.
  intros HL E1 E2 E3. destruct (train_lift_ok P cont Qs Zs q1 z1 HL E1) as (L1 & V1 & R1).
  pose proof (rel_opt_len _ _ _ _ R1) as LZ1. destruct (train_transform_ok P cont ft q1 z1 P2 q2 z2) as (A1 & A2 & L2 & V2 & R2 & F2); auto. { intros l El. rewrite L1. auto. }
  pose proof (rel_opt_len _ _ _ _ R2) as LZ2. destruct (train_compress_ok P2 fb q2 z2 P3 q3 z3) as (B1 & B2 & L3 & V3 & R3 & F3); auto. { intros l El. rewrite L2. auto. }
  pose proof (rel_opt_len _ _ _ _ R3) as LZ3. rewrite L1 in *. rewrite L2 in *. rewrite L3 in *. split; [|split; auto; split; [auto|split]].
  - split; [congruence|]. exists q1, q2. rewrite B2, A2 in *. split; [|split; [|split]].
    + apply (index_Forall2 _ dfl dfl); auto.
    + apply (index_Forall2 _ dfl dfl); [congruence|]. rewrite L1. auto.
    + exact F2.
    + exact F3.
  - destruct Zs, z1, z2, z3; cbn in *; try tauto; split; congruence.
  - intros i Hi. specialize (V1 i Hi). specialize (V2 i Hi). specialize (V3 i Hi).
    assert (EN : encode1 P3 (nth i Qs dfl) = Ok (nth i q3 dfl)). { apply encode1_iff. exists (nth i q1 dfl), (nth i q2 dfl). rewrite B1, A1, B2. auto. }
    destruct Zs as [zl0|], z1 as [zl1|], z2 as [zl2|], z3 as [zl3|]; cbn [rel_opt] in *; try tauto; cbn [nth_opt option_map].
    + destruct R1 as [_ R1], R2 as [_ R2], R3 as [_ R3]. specialize (R1 i Hi). specialize (R2 i Hi). specialize (R3 i Hi). destruct cont.
      * apply encode_continuous. eexists _, _, _. rewrite B1, A1, B2. repeat split; eauto.
      * apply encode_discrete. eexists. split; [reflexivity|]. split; auto. apply encode1_iff. rewrite B1, A1, B2. eauto.
    + rewrite encode_cont_none, EN. reflexivity.
Qed.
Lemma train_lhs_given D cont Qs zs Us : train_lhs D cont Qs (Some zs) Us = Ok (Qs, zs, Us). Proof. reflexivity. Qed.
Lemma process_ok P D cont ft fb Qs Zs Us P' es ds us : same_length Qs Zs -> same_length Qs Us ->
  process_training P D cont ft fb Qs Zs Us = Ok (P', (es, ds, us)) -> fitted_on ft fb Qs P P' /\ contributions P' D cont Qs Zs Us es ds us.
Proof.
  intros HZ HU E. unfold process_training in E.
  destruct (train_lift P cont Qs Zs) as [[q1 z1]|] eqn:E1; [|discriminate]. cbn [bind] in E.
  destruct (train_transform P cont ft q1 z1) as [[[P2 q2] z2]|] eqn:E2; [|discriminate]. cbn [bind] in E.
  destruct (train_compress P2 fb q2 z2) as [[[P3 q3] z3]|] eqn:E3; [|discriminate]. cbn [bind] in E.
  destruct (train_lhs D cont q3 z3 Us) as [[[e0 d0] u0]|] eqn:E4; [|discriminate]. cbn [bind] in E. injection E as <- <- <- <-.
  destruct (process_encodes P cont ft fb Qs Zs q1 z1 P2 q2 z2 P3 q3 z3 HZ E1 E2 E3) as (F & L & LZ & NZ & HE). split; auto. unfold contributions.
  destruct z3 as [zl|].
  - cbn [train_lhs] in E4. injection E4 as <- <- <-. specialize (LZ zl eq_refl). assert (Zs <> None) by (intros EZ; apply NZ in EZ; discriminate). destruct Zs as [zs|]; [|congruence].
    split; auto. split; auto. split; [tauto|]. split; auto. intros i Hi. specialize (HE i Hi). cbn [nth_opt option_map] in *. unfold contributes. auto.
  - assert (Zs = None) by now apply NZ. subst Zs. cbn [nth_opt option_map] in *. unfold train_lhs in E4. destruct cont.
    + destruct D as [est|]; [|discriminate]. destruct Us as [ul|].
      * destruct (mapM _ (combine q3 ul)) as [l|] eqn:Em; [|discriminate]. cbn [bind] in E4. destruct (length l =? 0); [discriminate|]. injection E4 as <- <- <-.
        destruct (mapM_index _ (dfl, dfl) (([], []), dfl) _ _ Em) as [Lm Hm]. specialize (HU ul eq_refl). rewrite combine_length in *. rewrite !map_length.
        split; [lia|]. split; [lia|]. split; [split; discriminate|]. split. { intros l0 E0. injection E0 as <-. rewrite map_length. lia. }
        intros i Hi. cbn [nth_opt option_map]. exists (nth i q3 dfl). split; auto. specialize (Hm i ltac:(lia)). rewrite combine_nth in Hm by lia. cbn [fst snd] in Hm.
        destruct (est (nth i q3 dfl) (Some (nth i ul dfl))) as [[[E0 F0] w]|] eqn:Ee; [|discriminate]. cbn [bind snd fst] in Hm. destruct w as [w|]; [|discriminate]. injection Hm as Hm.
        exists est, E0, F0, (Some w). split; auto. split; auto.
        rewrite (nth_map_in _ l i dfl (([], []), dfl)) by lia. rewrite (nth_map_in _ l i dfl (([], []), dfl)) by lia. rewrite (nth_map_in _ l i dfl (([], []), dfl)) by lia.
        rewrite <- Hm. cbn. repeat split; auto. discriminate.
      * destruct (mapM _ q3) as [l|] eqn:Em; [|discriminate]. cbn [bind] in E4. destruct (length l =? 0); [discriminate|]. injection E4 as <- <- <-.
        destruct (mapM_index _ dfl ([], [], None) _ _ Em) as [Lm Hm]. rewrite !map_length.
        split; [lia|]. split; [lia|]. split; [tauto|]. split. { intros l0 E0. discriminate. }
        intros i Hi. cbn [nth_opt option_map]. exists (nth i q3 dfl). split; auto. specialize (Hm i ltac:(lia)).
        rewrite (nth_map_in _ l i dfl ([], [], None)) by lia. rewrite (nth_map_in _ l i dfl ([], [], None)) by lia.
        destruct (nth i l ([], [], None)) as [[E0 F0] w]. exists est, E0, F0, w. cbn. auto.
    + destruct (mapM drop_first q3) as [zs|] eqn:Ef; [|discriminate]. cbn [bind] in E4. destruct (mapM drop_last q3) as [qs|] eqn:El; [|discriminate]. cbn [bind] in E4. injection E4 as <- <- <-.
      destruct (mapM_index _ dfl dfl _ _ Ef) as [L1 H1]. destruct (mapM_index _ dfl dfl _ _ El) as [L2 H2].
      split; [lia|]. split; [lia|]. split. { destruct Us; cbn; split; congruence || tauto. }
      split. { intros l0 E0. destruct Us as [ul|]; [|discriminate]. cbn in E0. injection E0 as <-. rewrite map2_length. specialize (HU ul eq_refl). lia. }
      intros i Hi. cbn [nth_opt option_map]. exists (nth i q3 dfl). split; auto. specialize (H1 i ltac:(lia)). specialize (H2 i ltac:(lia)).
      destruct (nth i q3 dfl) as [v|E0] eqn:En; [discriminate|]. cbn [drop_first drop_last] in H1, H2. injection H1 as H1. injection H2 as H2. exists E0. rewrite <- H1, <- H2. repeat split; auto.
      destruct Us as [ul|]; cbn [option_map nth_opt]; [|reflexivity]. specialize (HU ul eq_refl). rewrite (map2_nth _ qs ul i dfl dfl dfl) by lia. rewrite <- H2. reflexivity.
Qed.
Lemma rom_fit_ok LX r T ft fb r' Qs Zs Us : trajectories_of T Qs Zs Us -> same_length Qs Zs -> same_length Qs Us -> rom_fit LX r T ft fb = (r', Ok tt) ->
  exists es ds us Q L U, fitted_on ft fb Qs (rm_parts r) (rm_parts r') /\ contributions (rm_parts r') (rm_ddt r) (rm_cont r) Qs Zs Us es ds us /\
    hstack_arr es = Ok Q /\ hstack_arr ds = Ok L /\ hstack_opt us = Ok U /\ model_fit LX (rm_model r) Q L U = (rm_model r', Ok tt) /\ rm_ddt r' = rm_ddt r.
Proof.
  intros HT HZ HU E. unfold rom_fit, rom_fit_with in E.
  destruct (do _ <- check_fit_args _ _ _ _ _; _) as [[P [[qs zs] us]]|e] eqn:E1; [|discriminate].
  destruct (check_fit_args _ _ _ _ _) as [[]|]; [|discriminate]. cbn [bind] in E1. destruct (fix_single T) as [[[Q1 Z1] U1]|] eqn:E2; [|discriminate]. cbn [bind] in E1.
  assert (HF : Q1 = Qs /\ Z1 = Zs /\ U1 = Us).
  { destruct T as [Q Z U|Qs' Zs' Us']; cbn [trajectories_of fix_single] in HT, E2.
    - destruct (nrows Q =? 0); [discriminate|]. inversion E2. destruct HT as (-> & -> & ->). auto.
    - destruct HT as (-> & -> & ->). destruct Qs' as [|[v|A] Qs']; try discriminate. inversion E2. auto. }
  destruct HF as (-> & -> & ->). destruct (process_ok _ _ _ _ _ _ _ _ _ _ _ _ HZ HU E1) as [F C].
  destruct (do U <- hstack_opt us; _) as [[[Q L] U]|e] eqn:E3; [|discriminate].
  destruct (model_fit LX (rm_model r) Q L U) as [d' x] eqn:E4. assert (Hx : x = Ok tt) by (destruct x as [[]|]; [auto|discriminate]). subst x. cbn in E. inversion E; subst r'; clear E.
  destruct (hstack_opt us) as [U'|] eqn:F1; [|discriminate]. cbn [bind] in E3. destruct (hstack_arr qs) as [Q'|] eqn:F2; [|discriminate]. cbn [bind] in E3. destruct (hstack_arr zs) as [L'|] eqn:F3; [|discriminate]. cbn [bind] in E3. injection E3 as -> -> ->.
  exists qs, zs, us, Q, L, U. cbn [rm_parts rm_ddt rm_model]. auto 10.
Qed.
(* refused arguments *)
Lemma rom_fit_refuses LX r T ft fb : let '(lhs, inp) := train_args T in
  (lhs = false /\ rm_cont r = true /\ rm_ddt r = None) \/ (inp = false /\ m_hasin (rm_model r) = true) -> rom_fit LX r T ft fb = (r, Err ValueError).
Proof.
  destruct (train_args T) as [lhs inp] eqn:ET. intros H. unfold rom_fit, rom_fit_with. rewrite ET. cbn [fst snd].
  assert (EC : check_fit_args (rm_cont r) (m_hasin (rm_model r)) lhs inp (rm_ddt r) = Err ValueError).
  { unfold check_fit_args. destruct H as [(-> & -> & ->)|(-> & ->)]; cbn; auto. destruct (negb lhs && rm_cont r && negb (given (rm_ddt r))); auto. }
  rewrite EC. reflexivity.
Qed.
(* trajectories side by side *)
Lemma as_mats_map l : as_mats (map M l) = Ok l.
Proof. unfold as_mats. induction l as [|x l IH]; cbn [map mapM]; auto. cbn [bind]. rewrite IH. reflexivity. Qed.
Lemma hstack_arr_M l : l <> [] -> hstack_arr (map M l) = do H <- hstack_r l; Ok (M H).
Proof. intros Hne. destruct l as [|x l]; [congruence|]. unfold hstack_arr. pose proof (as_mats_map (x :: l)) as E. cbn [map] in *. rewrite E. reflexivity. Qed.
Lemma stacked_columns r ks l H : 0 < r -> l <> [] -> blocks r ks l -> hstack_arr (map M l) = Ok H -> exists A, H = M A /\ is_mat r (lsumn ks) A /\
  forall t j, t < length l -> j < nth t ks 0 -> col r (M A) (lsumn (firstn t ks) + j) = col r (M (nth t l [])) j.
Proof.
  intros Hr Hne HB E. rewrite hstack_arr_M in E by auto. rewrite (hstack_r_ok r ks l HB Hne) in E. cbn [bind] in E. injection E as <-. exists (hstack l). split; auto. split; [now apply is_mat_hstack|].
  intros t j Ht Hj. unfold col. apply map_ext_in. intros i Hi. apply in_seq in Hi. cbn [aget]. pose proof (F2_length _ _ _ HB) as HL.
  rewrite (hstack_get r ks l Hr HB t (nth t l []) (nth t ks 0)); auto; try lia; apply nth_error_nth'; lia.
Qed.
Lemma col_colv n A j : col n (M A) j = colv n A j. Proof. reflexivity. Qed.

(* time-discrete models without lhs: successive snapshots of the same trajectory *)
Lemma discrete_training LX r T ft fb r' Qs Us n0 n p ks : rm_cont r = false -> trajectories_of T (map M Qs) None Us -> same_length (map M Qs) Us ->
  rom_fit LX r T ft fb = (r', Ok tt) -> trajectories n0 ks Qs -> 0 < n0 -> 0 < p -> trained_parts n p (rm_parts r') -> columnwise_lifter n0 n (rp_lift (rm_parts r')) ->
  exists A N U, model_fit LX (rm_model r) (M A) (M N) U = (rm_model r', Ok tt) /\
    is_mat p (pairs_before (length ks) ks) A /\ is_mat p (pairs_before (length ks) ks) N /\
    (forall t j, t < length Qs -> j + 1 < nth t ks 0 ->
       encode1 (rm_parts r') (V (colv n0 (nth t Qs []) j)) = Ok (V (colv p A (pairs_before t ks + j))) /\
       encode1 (rm_parts r') (V (colv n0 (nth t Qs []) (j + 1))) = Ok (V (colv p N (pairs_before t ks + j)))) /\
    (Us = None -> U = None) /\
    (forall us m, Us = Some us -> usable_inputs m ks us -> exists u, U = Some u /\ is_mat m (pairs_before (length ks) ks) (atleast_2d u) /\
       forall t j, t < length Qs -> j + 1 < nth t ks 0 -> colv m (atleast_2d u) (pairs_before t ks + j) = colv m (atleast_2d (nth t us (V []))) j).
Proof.
  intros HD HT HU E HQ Hn0 Hp HP HC. destruct (rom_fit_ok LX r T ft fb r' _ None Us HT) as (es & ds & us & Q & L & U & F & (L1 & L2 & N3 & L3 & HI) & S1 & S2 & S3 & EF & _); auto. { intros l; discriminate. }
  rewrite HD in HI. rewrite map_length in *. destruct HQ as (HB & Hk & Hne). pose proof (F2_length _ _ _ HB) as HLk.
  pose proof (encode_columns n0 n p _ HP HC) as EC.
  assert (HE : forall i, exists Ei, i < length Qs -> encode1 (rm_parts r') (M (nth i Qs [])) = Ok (M Ei) /\ is_mat p (nth i ks 0) Ei /\
    (forall j, j < nth i ks 0 -> encode1 (rm_parts r') (V (colv n0 (nth i Qs []) j)) = Ok (V (colv p Ei j))) /\
    nth i es dfl = M (map (@removelast R) Ei) /\ nth i ds dfl = M (map (@tl R) Ei) /\ nth_opt us i = option_map (cut (ncols (map (@removelast R) Ei))) (nth_opt Us i)).
  { intros i. destruct (Nat.lt_ge_cases i (length Qs)) as [Hi|Hi]; [|exists []; lia]. specialize (HI i Hi). cbn [nth_opt option_map] in HI. destruct HI as (c & Ec & Ei & -> & H1 & H2 & H3).
    exists Ei. intros _. rewrite encode_cont_none in Ec. destruct (encode1 (rm_parts r') (nth i (map M Qs) dfl)) as [c|] eqn:Ec'; [|discriminate]. injection Ec as ->.
    rewrite (nth_map_in _ Qs i dfl []) in Ec' by auto.
    assert (HM : is_mat n0 (nth i ks 0) (nth i Qs [])) by (apply (Forall2_nth_iff (fun c M => is_mat n0 c M) ks Qs 0 []); auto; lia).
    destruct (EC (nth i ks 0) (M (nth i Qs [])) HM _ Ec') as (SE & _ & HCol). repeat split; auto; apply SE. }
  destruct (finite_choice [] (length Qs) (fun i Ei => encode1 (rm_parts r') (M (nth i Qs [])) = Ok (M Ei) /\ is_mat p (nth i ks 0) Ei /\
    (forall j, j < nth i ks 0 -> encode1 (rm_parts r') (V (colv n0 (nth i Qs []) j)) = Ok (V (colv p Ei j))) /\
    nth i es dfl = M (map (@removelast R) Ei) /\ nth i ds dfl = M (map (@tl R) Ei) /\ nth_opt us i = option_map (cut (ncols (map (@removelast R) Ei))) (nth_opt Us i))) as [G HG].
  { intros i Hi. destruct (HE i) as [Ei H]. exists Ei. now apply H. }
  clear HE HI. set (Es := map G (seq 0 (length Qs))). assert (LE : length Es = length Qs) by (unfold Es; now rewrite map_length, seq_length).
  assert (NE : forall i, i < length Qs -> nth i Es [] = G i). { intros i Hi. unfold Es. rewrite (nth_map_in _ (seq 0 (length Qs)) i [] 0) by (rewrite seq_length; auto). now rewrite seq_nth. }
  assert (HTr : trajectories p ks Es).
  { split; [|split; auto].
    - apply (index_Forall2 _ 0 []); [lia|]. intros i Hi. rewrite NE by lia. now apply HG; lia.
    - intros E0. apply (f_equal (@length mat)) in E0. rewrite LE in E0. destruct Qs; [congruence|discriminate]. }
  assert (Ees : es = map M (map (map (@removelast R)) Es)).
  { apply (nth_ext _ _ dfl dfl); rewrite ?map_length; [lia|]. intros i Hi. rewrite (nth_map_in _ _ i dfl []) by (rewrite map_length; lia). rewrite (nth_map_in _ Es i [] []) by lia. rewrite NE by lia. now apply HG; lia. }
  assert (Eds : ds = map M (map (map (@tl R)) Es)).
  { apply (nth_ext _ _ dfl dfl); rewrite ?map_length; [lia|]. intros i Hi. rewrite (nth_map_in _ _ i dfl []) by (rewrite map_length; lia). rewrite (nth_map_in _ Es i [] []) by lia. rewrite NE by lia. now apply HG; lia. }
  assert (HneE : Es <> []) by apply HTr.
  destruct (stack_states p ks Es Hp HTr) as (A & N & A1 & A2 & PA & PN & PP).
  rewrite Ees, hstack_arr_M in S1 by (destruct Es; [congruence|discriminate]). rewrite Eds, hstack_arr_M in S2 by (destruct Es; [congruence|discriminate]). rewrite A1 in S1. rewrite A2 in S2. injection S1 as <-. injection S2 as <-.
  assert (Epb : pairs_before (length ks) ks = lsumn (map (fun k => k - 1) ks)) by (unfold pairs_before; now rewrite firstn_all).
  exists A, N, U. rewrite Epb. split; auto. split; auto. split; auto. split; [|split].
  - intros t j Ht Hj. destruct (HG t Ht) as (_ & _ & HCol & _). destruct (PP t (G t) (nth t ks 0) j) as [C1 C2]; auto.
    { rewrite <- NE by auto. apply nth_error_nth'. lia. } { apply nth_error_nth'. lia. }
    rewrite C1, C2. split; apply HCol; lia.
  - intros ->. assert (us = None) by now apply N3. subst us. now injection S3 as <-.
  - intros ul m -> HUs. destruct us as [ul'|]; [|destruct N3 as [N3 _]; specialize (N3 eq_refl); discriminate]. cbn [hstack_opt] in S3. destruct (hstack_arr ul') as [UU|] eqn:EU; [|discriminate]. injection S3 as <-.
    exists UU. split; auto. specialize (HU ul eq_refl). specialize (L3 ul' eq_refl).
    assert (Eul : ul' = map2 (fun Q u => cut (ncols Q - 1) u) Es ul).
    { apply (nth_ext _ _ dfl dfl); [rewrite map2_length; rewrite map_length in HU; lia|]. intros i Hi. rewrite map_length in HU. rewrite (map2_nth _ Es ul i [] dfl dfl) by lia. destruct (HG i ltac:(lia)) as (_ & HM & _ & _ & _ & HH). cbn [nth_opt option_map] in HH. injection HH as HH. rewrite HH, NE by lia. f_equal.
      rewrite (ncols_is_mat _ _ _ HM Hp). rewrite (ncols_is_mat _ _ _ (is_mat_removelast _ _ _ HM) Hp). reflexivity. }
    rewrite map_length in HU.
    destruct HUs as [[Hm HI2]|[-> HI1]].
    + destruct (stack_inputs p ks Es Hp HTr m ul Hm HI2) as (S0 & N0 & UM & EE & _ & PU & PC). unfold stack_trajectories in EE. rewrite A1, A2 in EE. cbn [bind] in EE. rewrite <- Eul, EU in EE. cbn [bind] in EE. injection EE as _ _ ->.
      cbn [atleast_2d]. split; auto. intros t j Ht Hj. apply (PC t (nth t ul dfl) (nth t ks 0)); auto; apply nth_error_nth'; lia.
    + destruct (stack_inputs_1d p ks Es Hp HTr ul HI1) as (S0 & N0 & w & EE & _ & PU & PC). unfold stack_trajectories in EE. rewrite A1, A2 in EE. cbn [bind] in EE. rewrite <- Eul, EU in EE. cbn [bind] in EE. injection EE as _ _ ->.
      cbn [atleast_2d]. split. { split; auto. } intros t j Ht Hj. destruct (PC t (nth t ul dfl) (nth t ks 0) j) as (v & Ev & Hv); auto; try (apply nth_error_nth'; lia).
      rewrite Ev. cbn [atleast_2d]. unfold colv. cbn [seq map]. unfold mget. cbn [nth]. f_equal. exact Hv.
Qed.

(* VerifyUser.v -- what verify() accepts of a user's own basis, and what projecting a parametric operator keeps. *)
From Coq Require Import ZArith Lra Psatz.
From Verif Require Import MatAlg LinAlg PreProofs PreLocs PreFinal BasisProofs GalProofs VerifyProofs VerifyTf VerifyBasis.
From Verif Require Import SpecVerify.
#[local] Open Scope nat_scope.

Lemma rect_shape n k A p : is_mat n k A -> 0 < n -> array p -> shape_eqb p (M A) = true -> exists P, p = M P /\ is_mat n k P.
Proof.
  intros HA Hn (n' & k' & Hp) H. destruct p as [v|P]; [discriminate|]. cbn in H, Hp. apply andb_true_iff in H. destruct H as [H1 H2]. apply Nat.eqb_eq in H1, H2.
  unfold nrows in H1. rewrite (is_mat_len _ _ _ HA), (is_mat_len _ _ _ Hp) in H1. subst n'. rewrite (ncols_is_mat n k A HA Hn), (ncols_is_mat n k' P Hp Hn) in H2. subst. eauto.
Qed.
Lemma shape_sel n k P idx x : is_mat n k P -> Forall (fun i => i < n) idx -> array x ->
  shape_eqb x (asel idx (M P)) = true <-> exists Z, x = M Z /\ is_mat (length idx) k Z.
Proof.
  intros HP Hi Hx. assert (HS : is_mat (length idx) k (map (fun i => nth i P []) idx)).
  { split; [now rewrite map_length|]. rewrite Forall_forall in *. intros r Hr. apply in_map_iff in Hr. destruct Hr as (i & <- & H). destruct HP as [L HF]. rewrite Forall_forall in HF. apply HF, nth_In. specialize (Hi i H). lia. }
  split.
  - intros H. destruct (length idx) as [|l] eqn:E.
    + destruct idx; [|discriminate]. destruct x as [v|Z]; [discriminate|]. cbn in H. apply andb_true_iff in H. destruct H as [H _]. apply Nat.eqb_eq in H. exists Z. split; auto. destruct Z; [split; constructor|discriminate].
    + apply (rect_shape (S l) k (map (fun i => nth i P []) idx)); auto; [lia].
  - intros (Z & -> & HZ). apply (shape_mat (length idx) k); auto.
Qed.
Lemma close_sel n k P idx Z : is_mat n k P -> Forall (fun i => i < n) idx -> is_mat (length idx) k Z ->
  aclose (M Z) (asel idx (M P)) = true <-> forall i j, i < length idx -> j < k -> SpecEq.close (mget Z i j) (mget P (nth i idx 0) j).
Proof.
  intros HP Hi HZ. cbn [asel aclose]. rewrite EqBasis.allclose_true. unfold nrows. rewrite (is_mat_len _ _ _ HZ). destruct (length idx) as [|l] eqn:E.
  - split; intros _ i j H; lia.
  - rewrite (ncols_is_mat (S l) k Z HZ) by lia. assert (K : forall i j, i < S l -> mget (map (fun i => nth i P []) idx) i j = mget P (nth i idx 0) j).
    { intros i j H. unfold mget. now rewrite (nth_map_in (fun i => nth i P []) idx i [] 0) by lia. }
    split; intros H i j H1 H2; specialize (H i j H1 H2); rewrite K in *; auto.
Qed.
Lemma user_basis n k X comp dec draw Q v p w x q2 P2 : 0 < n -> is_mat n k (X n) -> Forall (fun i => i < n) (draw n) ->
  comp (M (X n)) = Ok (M Q) -> comp (V (map (fun row => nth 0 row 0%R) (X n))) = Ok v -> dec (M Q) None = Ok p -> dec v None = Ok w ->
  dec (M Q) (Some (zlocs (draw n))) = Ok x -> comp p = Ok q2 -> dec q2 None = Ok (M P2) -> array p -> array x -> is_mat n k P2 ->
  let verdict := v_basis (Some n) comp dec (t_blocs dec draw) X in
  (verdict = Ok tt \/ verdict = Err VerificationError) /\ (verdict = Ok tt <-> consistent n k (draw n) Q v p w x P2).
Proof.
  intros Hn HX Hd E1 E2 E3 E4 E5 E6 E7 Hp Hx HP2. cbv zeta. unfold v_basis. rewrite E1. cbn [bind acols]. rewrite (ncols_is_mat n k (X n) HX Hn).
  destruct (Nat.eqb_spec (ncols Q) k) as [K1|K1]; cbn [rassert bind]; [|split; auto; split; [discriminate|intros (H & _); contradiction]].
  rewrite E2. cbn [bind]. destruct v as [v'|v']; cbn [rassert bind is_vec1]; [|split; auto; split; [discriminate|intros (_ & (z & H) & _); discriminate H]].
  rewrite E3. cbn [bind]. destruct (shape_eqb p (M (X n))) eqn:ES; cbn [rassert bind].
  2:{ split; auto; split; [discriminate|]. intros (_ & _ & _ & P & -> & HP & _). rewrite (shape_mat n k) in ES by auto. discriminate. }
  destruct (rect_shape n k (X n) p HX Hn Hp ES) as (P & -> & HP).
  rewrite E4. cbn [bind]. destruct w as [w'|w']; cbn [rassert bind is_vec1]; [|split; auto; split; [discriminate|intros (_ & _ & (z & H) & _); discriminate H]].
  unfold t_blocs. cbn [alen]. rewrite (is_mat_len _ _ _ HP), E5. cbn [bind].
  destruct (shape_eqb x (asel (draw n) (M P))) eqn:EL; cbn [rassert bind].
  2:{ split; auto; split; [discriminate|]. intros (_ & _ & _ & P' & E & HP' & _ & Z & -> & HZ & _). injection E as <-. assert (shape_eqb (M Z) (asel (draw n) (M P)) = true); [|congruence]. apply (shape_sel n k); eauto. }
  apply (shape_sel n k P (draw n) x HP Hd Hx) in EL. destruct EL as (Z & -> & HZ).
  pose proof (close_sel n k P (draw n) Z HP Hd HZ) as KC.
  destruct (aclose (M Z) (asel (draw n) (M P))) eqn:EC; cbn [rassert bind].
  2:{ split; auto; split; [discriminate|]. intros (_ & _ & _ & P' & E & HP' & _ & Z' & E' & _ & H). injection E as <-. injection E' as <-. apply KC in H. discriminate. }
  rewrite E6. cbn [bind]. rewrite E7. cbn [bind]. pose proof (aclose_near n k P2 P HP2 Hn) as KN.
  destruct (aclose (M P2) (M P)) eqn:EN; cbn [rassert]; split; auto; split; try discriminate; try (intros _; reflexivity).
  - intros _. split; auto. split; [eauto|]. split; [eauto|]. exists P. split; auto. split; auto. split; [now apply KN|]. exists Z. split; auto. split; auto. now apply KC.
  - intros (_ & _ & _ & P' & E & _ & H & _). injection E as <-. destruct KN as [_ KN]. discriminate (KN H).
Qed.
Lemma user_basis_untrained comp dec locs X : v_basis None comp dec locs X = Err AttributeError.
Proof. reflexivity. Qed.
Lemma user_basis_accepted n X comp dec draw : v_basis (Some n) comp dec (t_blocs dec draw) X = Ok tt ->
  exists Q v p w x, comp (M (X n)) = Ok (M Q) /\ comp (V (map (fun row => nth 0 row 0%R) (X n))) = Ok (V v) /\ dec (M Q) None = Ok p /\ dec (V v) None = Ok (V w) /\
    dec (M Q) (Some (zlocs (draw (alen p)))) = Ok x /\ exists q2 p2, comp p = Ok q2 /\ dec q2 None = Ok p2.
Proof.
  unfold v_basis. intros H. destruct (comp (M (X n))) as [q|] eqn:E1; cbn [bind] in H; [|discriminate]. destruct q as [|Q]; cbn [acols bind] in H; [discriminate|].
  destruct (ncols Q =? ncols (X n)); cbn [rassert bind] in H; [|discriminate].
  destruct (comp (V _)) as [v|] eqn:E2; cbn [bind] in H; [|discriminate]. destruct v as [v|]; cbn [rassert bind is_vec1] in H; [|discriminate].
  destruct (dec (M Q) None) as [p|] eqn:E3; cbn [bind] in H; [|discriminate]. destruct (shape_eqb p _); cbn [rassert bind] in H; [|discriminate].
  destruct (dec (V v) None) as [w|] eqn:E4; cbn [bind] in H; [|discriminate]. destruct w as [w|]; cbn [rassert bind is_vec1] in H; [|discriminate].
  unfold t_blocs in H. destruct (dec (M Q) (Some _)) as [x|] eqn:E5; cbn [bind] in H; [|discriminate].
  destruct (shape_eqb x _); cbn [rassert bind] in H; [|discriminate]. destruct (aclose x _); cbn [rassert bind] in H; [|discriminate].
  destruct (comp p) as [q2|] eqn:E6; cbn [bind] in H; [|discriminate]. destruct (dec q2 None) as [p2|] eqn:E7; cbn [bind] in H; [|discriminate].
  exists Q, v, p, w, x. repeat (split; auto). eauto.
Qed.

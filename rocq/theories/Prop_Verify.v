(* Prop_Verify.v -- property C66 (verify() of transformers and bases). *)
From Coq Require Import String ZArith Reals Lra Lia List.
From Verif Require Import PreProofs PreFinal PreHeapProofs BasisProofs BasisMultiProofs VerifyProofs VerifyTf VerifyTf2 VerifyRej VerifyBasis VerifyUser.
From Verif Require Import SpecVerify.
#[local] Open Scope nat_scope.

(* C66: verify() accepts every trained transformer of the library (but for the two cases below), whatever is drawn and whatever the tolerance, and leaves all existing arrays as they were. *)
Theorem C66_library_accepted :
  forall rx rl tol t,
  draws_ok rx rl -> (0 <= tol)%R -> forall n path h, verifiable n t -> exists h', tf_verify rx rl tol t path h = (h', Ok tt) /\ unchanged h h'.
Proof. exact library_accepts. Qed.
Print Assumptions C66_library_accepted.

(* C66: because transform and transform_ddts of every trained transformer act on each row by one affine map and by its linear part. *)
Theorem C66_affine :
  forall t n,
  trained n t -> exists a b, row_affine n a b (transform t) (transform_ddts t).
Proof. exact C66_affine. Qed.
Print Assumptions C66_affine.

(* C66: verify() of a transformer without a dimension raises AttributeError. *)
Theorem C66_untrained :
  forall rx rl tol t path h,
  tf_dim t = None -> (forall l, t <> TMulti l) -> tf_verify rx rl tol t path h = (h, Err AttributeError).
Proof. exact untrained. Qed.
Print Assumptions C66_untrained.

(* C66, refuted for byrow=True without scaling: verify() of the fitted transformer raises TypeError. *)
Theorem C66_byrow_refuted :
  forall cent nm t0 A t b rx rl tol path h,
  mk_ss cent None true nm = Ok t0 -> 0 < nrows A -> fit_transform t0 (M A) = Ok (t, b) -> draws_ok rx rl ->
  trained (nrows A) t /\ exists h', tf_verify rx rl tol t path h = (h', Err TypeError) /\ unchanged h h'.
Proof. exact byrow_fails. Qed.
Print Assumptions C66_byrow_refuted.

(* C66, refuted for a pipeline around a TransformerMulti with variables of different sizes: verify() raises ValueError. *)
Theorem C66_pipeline_refuted :
  forall ns l nm rx rl tol path h,
  l <> [] -> 0 < lsumn ns -> Forall2 trained ns l -> (exists x y, In x ns /\ In y ns /\ x <> y) -> draws_ok rx rl ->
  trained (lsumn ns) (TPipe [TMulti l] nm) /\ exists h', tf_verify rx rl tol (TPipe [TMulti l] nm) path h = (h', Err ValueError) /\ unchanged h h'.
Proof. exact pipe_fails. Qed.
Print Assumptions C66_pipeline_refuted.

(* C66: verify() accepts the class of a user whose methods keep the inplace promise, whose inverse undoes the transformation (also at selected locations) and whose transform_ddts is the linear part of a row-affine transform. *)
Theorem C66_user_accepted :
  forall o n T I draw X tol,
  vo_dim o = Some n -> 0 < n -> is_mat n 20 (X n) -> respects_inplace (vo_transform o) (no_output T) ->
  (forall l, respects_inplace (vo_inverse o l) (no_output (I l))) -> vo_locs o = h_locs (vo_inverse o) draw -> Forall (fun i => i < n) (draw n) ->
  (forall dd0, vo_ddts o = Some dd0 -> exists D a b, respects_inplace dd0 (no_output D) /\ row_affine n a b T D) -> inverse_of n T I -> (0 <= tol)%R ->
  forall h, exists h', h_verify o X tol h = (h', Ok tt) /\ unchanged h h'.
Proof. exact user_accepts. Qed.
Print Assumptions C66_user_accepted.

(* C66: for methods that keep the inplace promise verify() either accepts or raises VerificationError, and accepts exactly if round trip, located round trip and derivative agree on the drawn states. *)
Theorem C66_user_verdict :
  forall o n T I D dd0 draw X tol B C Z E DX DB h,
  vo_dim o = Some n -> 0 < n -> is_mat n 20 (X n) -> respects_inplace (vo_transform o) (no_output T) ->
  (forall l, respects_inplace (vo_inverse o l) (no_output (I l))) -> vo_ddts o = Some dd0 -> respects_inplace dd0 (no_output D) ->
  vo_locs o = h_locs (vo_inverse o) draw -> Forall (fun i => i < n) (draw n) -> (0 <= tol)%R ->
  T (M (X n)) = Ok B -> I None B = Ok (M C) -> I (Some (zlocs (draw n))) (asel (draw n) B) = Ok (M Z) -> (exists v, D (M (X n)) = Ok v) ->
  time_ddt (M (X n)) = Ok DX -> D (M DX) = Ok (M E) -> time_ddt B = Ok DB ->
  exists h' r, h_verify o X tol h = (h', r) /\ unchanged h h' /\ (r = Ok tt \/ r = Err VerificationError) /\
  (r = Ok tt <-> near n 20 C (X n) /\ near (length (draw n)) 20 Z (take_at [] (X n) (draw n)) /\ (distance n 20 E DB <= tol * norm n 20 DB)%R).
Proof. exact verdict. Qed.
Print Assumptions C66_user_verdict.

(* C66: verify() never accepts a class one of whose methods ignores inplace=True (always returns another array) or inplace=False (always returns its argument). *)
Theorem C66_alias_rejected :
  forall o n X tol h,
  vo_dim o = Some n -> 0 < n -> is_mat n 20 (X n) ->
  no_free (vo_transform o) -> no_free (vo_inverse o None) -> (forall dd0, vo_ddts o = Some dd0 -> no_free dd0) -> (forall x y h1 h2 r, wf h1 x -> wf h1 y -> vo_locs o x y h1 = (h2, r) -> forall z, wf h1 z -> wf h2 z) ->
  (exists op, (op = vo_transform o \/ op = vo_inverse o None \/ vo_ddts o = Some op) /\
     ((forall h1 h2 x y, test_array n h1 x -> op true x h1 = (h2, Ok (tt, y)) -> y <> x) \/ (forall h1 h2 x y, test_array n h1 x -> op false x h1 = (h2, Ok (tt, y)) -> y = x))) ->
  snd (h_verify o X tol h) <> Ok tt.
Proof. exact alias_rejected. Qed.
Print Assumptions C66_alias_rejected.

(* C66: but it accepts a class whose transform(states, inplace=False) overwrites states. *)
Theorem C66_overwriting_accepted :
  forall o n T I draw X tol,
  vo_dim o = Some n -> 0 < n -> is_mat n 20 (X n) -> respects_inplace (vo_transform o) (no_output T) ->
  (forall l, respects_inplace (vo_inverse o l) (no_output (I l))) -> vo_locs o = h_locs (vo_inverse o) draw -> Forall (fun i => i < n) (draw n) ->
  (forall dd0, vo_ddts o = Some dd0 -> exists D a b, respects_inplace dd0 (no_output D) /\ row_affine n a b T D) -> inverse_of n T I -> (0 <= tol)%R ->
  forall h, exists h', h_verify (careless o) X tol h = (h', Ok tt) /\ unchanged h h'.
Proof. exact careless_accepts. Qed.
Print Assumptions C66_overwriting_accepted.

(* C66, refuted: so acceptance does not mean that inplace=False leaves its argument alone. *)
Theorem C66_overwriting_refuted :
  exists t, trained 1 t /\ flat t /\
  (forall rx rl tol h, is_mat 1 20 (rx 1) -> Forall (fun i => i < 1) (rl 1) -> (0 <= tol)%R -> exists h', h_verify (careless (tf_obj t rl)) rx tol h = (h', Ok tt) /\ unchanged h h') /\
  exists h x h' r, wf h x /\ vo_transform (careless (tf_obj t (fun _ => []))) false x h = (h', Ok r) /\ rd h' x <> rd h x.
Proof. exact careless_refuted. Qed.
Print Assumptions C66_overwriting_refuted.

(* C66: verify() of a basis accepts exactly if projecting the drawn states twice is, up to the tolerance, projecting them once; otherwise it raises VerificationError. *)
Theorem C66_basis_verdict :
  forall n r k W A b draw X,
  basis_of n r W A b -> b_n b = Some n -> is_mat n k (X n) -> Forall (fun i => i < n) (draw n) ->
  exists P P2, b_project b (M (X n)) = Ok (M P) /\ b_project b (M P) = Ok (M P2) /\ is_mat n k P /\ is_mat n k P2 /\
  (b_verify b draw X = Ok tt \/ b_verify b draw X = Err VerificationError) /\ (b_verify b draw X = Ok tt <-> near n k P2 P).
Proof. exact basis_verdict. Qed.
Print Assumptions C66_basis_verdict.

(* C66: for the class of a user whose methods return arrays, verify() either accepts or raises VerificationError, and accepts exactly if one compressed column belongs to each state, a single state compresses to and decompresses from a vector, decompressing gives back the shape of the states, decompressing at the drawn locations gives the drawn rows and projecting twice is projecting once. *)
Theorem C66_user_basis :
  forall n k X comp dec draw Q v p w x q2 P2,
  0 < n -> is_mat n k (X n) -> Forall (fun i => i < n) (draw n) ->
  comp (M (X n)) = Ok (M Q) -> comp (V (map (fun row => nth 0 row 0%R) (X n))) = Ok v -> dec (M Q) None = Ok p -> dec v None = Ok w ->
  dec (M Q) (Some (zlocs (draw n))) = Ok x -> comp p = Ok q2 -> dec q2 None = Ok (M P2) -> array p -> array x -> is_mat n k P2 ->
  let verdict := v_basis (Some n) comp dec (t_blocs dec draw) X in
  (verdict = Ok tt \/ verdict = Err VerificationError) /\ (verdict = Ok tt <-> consistent n k (draw n) Q v p w x P2).
Proof. exact user_basis. Qed.
Print Assumptions C66_user_basis.

(* C66: if it accepts, every call it makes has succeeded, and single states stay vectors. *)
Theorem C66_user_basis_accepted :
  forall n X comp dec draw,
  v_basis (Some n) comp dec (t_blocs dec draw) X = Ok tt ->
  exists Q v p w x, comp (M (X n)) = Ok (M Q) /\ comp (V (map (fun row => nth 0 row 0%R) (X n))) = Ok (V v) /\ dec (M Q) None = Ok p /\ dec (V v) None = Ok (V w) /\
    dec (M Q) (Some (zlocs (draw (alen p)))) = Ok x /\ exists q2 p2, comp p = Ok q2 /\ dec q2 None = Ok p2.
Proof. exact user_basis_accepted. Qed.
Print Assumptions C66_user_basis_accepted.

(* C66: without a full state dimension it raises AttributeError. *)
Theorem C66_basis_untrained :
  forall comp dec locs X,
  v_basis None comp dec locs X = Err AttributeError.
Proof. exact user_basis_untrained. Qed.
Print Assumptions C66_basis_untrained.

(* C66: so it accepts every basis that is orthonormal in its weights. *)
Theorem C66_basis_accepted :
  forall n r k W A b draw X,
  basis_of n r W A b -> w_orthonormal n r W A -> b_n b = Some n -> is_mat n k (X n) -> Forall (fun i => i < n) (draw n) ->
  b_verify b draw X = Ok tt.
Proof. exact basis_accepts. Qed.
Print Assumptions C66_basis_accepted.

(* C66: the same for BasisMulti, whose members are verified first. *)
Theorem C66_basis_multi_verdict :
  forall ns rs bs k draws Xs draw X,
  members ns rs bs -> bs <> [] -> Forall2 le rs ns -> is_mat (lsumn ns) k (X (lsumn ns)) -> (forall m, Forall (fun i => i < m) (draw m)) ->
  exists P P2, bm_project bs (M (X (lsumn ns))) = Ok (M P) /\ bm_project bs (M P) = Ok (M P2) /\ is_mat (lsumn ns) k P /\ is_mat (lsumn ns) k P2 /\
  (b_verify_all bs draws Xs 0 = Ok tt -> (bm_verify bs draws Xs draw X = Ok tt \/ bm_verify bs draws Xs draw X = Err VerificationError) /\ (bm_verify bs draws Xs draw X = Ok tt <-> near (lsumn ns) k P2 P)).
Proof. exact multi_verdict. Qed.
Print Assumptions C66_basis_multi_verdict.

(* C66: so it accepts every BasisMulti with orthonormal members. *)
Theorem C66_basis_multi_accepted :
  forall ns rs bs k draws Xs draw X,
  members ns rs bs -> bs <> [] -> Forall orthonormal bs -> (forall i m, is_mat m k (Xs i m)) -> (forall m, is_mat m k (X m)) ->
  (forall i m, Forall (fun a => a < m) (draws i m)) -> (forall m, Forall (fun i => i < m) (draw m)) -> bm_verify bs draws Xs draw X = Ok tt.
Proof. exact multi_accepts. Qed.
Print Assumptions C66_basis_multi_accepted.

(* ---- the hypotheses can be met ---- *)
Definition x66 (n : nat) : mat := repeat (repeat 1%R 20) n.
Definition rx66 (_ : list nat) : nat -> mat := x66.
Definition rl66 (_ : list nat) (n : nat) : list nat := seq 0 n.
Lemma x66_mat n : is_mat n 20 (x66 n).
Proof. split; [apply repeat_length|]. apply Forall_forall. intros r Hr. apply repeat_spec in Hr. now subst r. Qed.
Lemma l66_ok p n : Forall (fun i => i < n) (rl66 p n).
Proof. apply Forall_forall. intros i Hi. apply in_seq in Hi. lia. Qed.
Example C66_example_draws : draws_ok rx66 rl66.
Proof. intros p n. split; [apply x66_mat|apply l66_ok]. Qed.
Definition sh1 : tf := TShift [1%R] None.
Definition sh2 : tf := TShift [1; 2]%R (Some "b"%string).
Example C66_example_library : verifiable 3 (TMulti [sh1; sh2]) /\ verifiable 2 (TMulti [sh1; sh1]) /\ verifiable 2 (TPipe [sh2; sh2] None).
Proof.
  assert (V1 : verifiable 1 sh1) by (constructor; [lia|reflexivity|exact Logic.I]).
  assert (V2 : verifiable 2 sh2) by (constructor; [lia|reflexivity|exact Logic.I]).
  split; [|split].
  - apply (vf_multi [1; 2]); [discriminate|auto|]. intros H. specialize (H 1 2 (or_introl eq_refl) (or_intror (or_introl eq_refl))). discriminate.
  - apply (vf_multi [1; 1]); [discriminate|auto|]. intros _. repeat constructor.
  - constructor; [lia| |]; [split; [discriminate|repeat split]|repeat split].
Qed.
Example C66_example_member_fails : exists h, snd (tf_verify rx66 rl66 1 (TMulti [TPipe [TMulti [sh1; sh2]] None]) [] h) <> Ok tt.
Proof.
  exists {| hcell := fun _ => 0%R; hnext := 0 |}. rewrite tf_verify_multi. unfold hbind at 1. cbn [vmembers]. unfold hbind at 1.
  assert (T2 : Forall2 trained [1; 2] [sh1; sh2]) by (repeat constructor). assert (D2 : exists x y, In x [1; 2] /\ In y [1; 2] /\ x <> y) by (exists 1, 2; cbn; repeat split; auto).
  assert (L2 : [sh1; sh2] <> []) by discriminate. assert (P2 : 0 < lsumn [1; 2]) by (unfold lsumn; cbn; lia).
  destruct (pipe_fails [1; 2] [sh1; sh2] None rx66 rl66 1 [0] {| hcell := fun _ => 0%R; hnext := 0 |} L2 P2 T2 D2 C66_example_draws) as [_ (h' & -> & _)]. discriminate.
Qed.
Example C66_example_byrow : exists t0 t b, mk_ss true None true None = Ok t0 /\ fit_transform t0 (M [[1; 3]]%R) = Ok (t, b).
Proof. do 3 eexists. split; reflexivity. Qed.
(* a class of a user: inverse_transform adds 2 where transform subtracted 1 *)
Definition wrong : vobj :=
  {| vo_dim := Some 1; vo_transform := htransform sh1; vo_inverse := fun locs => hinverse locs (TShift [2%R] None); vo_ddts := Some (htransform_ddts sh1);
     vo_locs := h_locs (fun locs => hinverse locs (TShift [2%R] None)) (fun _ => [0]) |}.
Example C66_example_wrong : forall h, exists h', h_verify wrong x66 1 h = (h', Err VerificationError) /\ unchanged h h'.
Proof.
  intros h. destruct (C08_all sh1) as (R1 & R2 & _). destruct (C08_all (TShift [2%R] None)) as (_ & _ & R3 & _).
  assert (Q : exists h' r, h_verify wrong x66 1 h = (h', r) /\ unchanged h h' /\ (r = Ok tt \/ r = Err VerificationError) /\
    (r = Ok tt <-> near 1 20 [repeat (1 - 1 + 2)%R 20] (x66 1) /\ near (length [0]) 20 [repeat (1 - 1 + 2)%R 20] (take_at [] (x66 1) [0]) /\
     (distance 1 20 (dd (x66 1)) (dd [repeat (1 - 1)%R 20]) <= 1 * norm 1 20 (dd [repeat (1 - 1)%R 20]))%R)).
  { assert (K : is_mat 1 20 [repeat (1 - 1)%R 20]) by (split; [reflexivity|repeat constructor]).
    apply (verdict wrong 1 (transform sh1) (fun l => inverse_transform (TShift [2%R] None) l) (transform_ddts sh1) (htransform_ddts sh1) (fun _ => [0]) x66 1%R (M [repeat (1 - 1)%R 20]) _ _ _ (dd (x66 1)) _ h); auto; try reflexivity.
    all: try apply x66_mat; try lra; try (constructor; [lia|constructor]); try (eexists; reflexivity); apply (ddt_ok 1); auto using x66_mat. }
  destruct Q as (h' & r & E & U & [ -> | -> ] & Hr); [|eauto]. exfalso. destruct (proj1 Hr eq_refl) as [N _]. specialize (N 0 0 ltac:(lia) ltac:(lia)). unfold SpecEq.close in N. cbn in N.
  rewrite Rabs_pos_eq in N by lra. rewrite Rabs_pos_eq in N by lra. assert (K1 : (/ 10 ^ 8 <= 1 / 10)%R) by lra. lra.
Qed.
(* the same with a correct inverse *)
Example C66_example_user : forall h, exists h', h_verify (tf_obj sh1 (fun _ => [0])) x66 0 h = (h', Ok tt) /\ unchanged h h'.
Proof.
  intros h. destruct (C08_all sh1) as (R1 & R2 & R3 & _).
  apply (user_accepts _ 1 (transform sh1) (fun l => inverse_transform sh1 l) (fun _ => [0])); auto; try reflexivity.
  - apply x66_mat. - cbn. intros dd0 E. injection E as <-. destruct (C66_affine sh1 1 eq_refl) as (a & b & Ha). eauto 6.
  - apply flat_inverse_of; [reflexivity|exact Logic.I]. - lra.
Qed.
(* methods that ignore inplace=True and always return a new array *)
Definition fresh_op (t : tf) : bool -> harr -> H (unit * harr) := fun _ => htransform t false.
Lemma fresh_no_free t : no_free (fresh_op t).
Proof. intros fl x h h' r W E z Hz. destruct (C08_all t) as (R1 & _). destruct (R1 _ _ _ _ _ W E) as [K _]. apply K; auto. discriminate. Qed.
Definition ignores : vobj := {| vo_dim := Some 1; vo_transform := fresh_op sh1; vo_inverse := fun _ => fresh_op (TShift [-1]%R None); vo_ddts := None; vo_locs := fun _ _ => hret tt |}.
Example C66_example_alias : forall h, snd (h_verify ignores x66 0 h) <> Ok tt.
Proof.
  intros h. apply (alias_rejected ignores 1); auto using x66_mat, fresh_no_free; try apply fresh_no_free; try discriminate.
  - intros x y h1 h2 r _ _ E. cbn in E. unfold hret in E. injection E as <- _. auto.
  - exists (vo_transform ignores). split; auto. left. intros h1 h2 x y (W & A & EA & HA) E -> . destruct (C08_all sh1) as (R1 & _). destruct (R1 false _ _ _ _ W E) as [_ (_ & _ & K)].
    specialize (K x W). assert (Hx : addrs x <> []) by (apply (rd_addrs 1 20 h1 x A); auto; lia). destruct (addrs x) as [|a l] eqn:Ea; [congruence|]. apply (K a); rewrite Ea; left; auto.
Qed.
(* bases *)
Definition basis66 (a : R) : basis := BLin {| lb_entries := [[a]]; lb_weights := None; lb_n := Some 1; lb_r := 1; lb_name := None |}.
Lemma basis66_of a : basis_of 1 1 None [[a]] (basis66 a).
Proof. split; [lia|split; [lia|split; [split; repeat constructor|split; [exact Logic.I|split; reflexivity]]]]. Qed.
Lemma basis66_orth : w_orthonormal 1 1 None [[1%R]].
Proof. intros [|a] [|b] Ha Hb; try lia. unfold wip. cbn. ring. Qed.
Example C66_example_basis : basis_of 1 1 None [[1%R]] (basis66 1) /\ w_orthonormal 1 1 None [[1%R]] /\ b_n (basis66 1) = Some 1 /\ is_mat 1 20 (x66 1) /\ Forall (fun i => i < 1) (rl66 [] 1).
Proof. split; [apply basis66_of|]. split; [apply basis66_orth|]. split; [reflexivity|]. split; [apply x66_mat|apply l66_ok]. Qed.
(* a basis that is not orthonormal is rejected *)
Example C66_example_basis_rejected : b_verify (basis66 2) (rl66 []) x66 = Err VerificationError.
Proof.
  destruct (basis_verdict 1 1 20 None [[2%R]] (basis66 2) (rl66 []) x66 (basis66_of 2) eq_refl (x66_mat 1) (l66_ok [] 1)) as (P & P2 & E1 & E2 & HP & HP2 & [H|H] & K); [|exact H].
  exfalso. apply K in H. specialize (H 0 0 ltac:(lia) ltac:(lia)).
  destruct (b_project_ok 1 1 20 None [[2%R]] (basis66 2) (M (x66 1)) (basis66_of 2) (x66_mat 1)) as (q & p & _ & _ & F1 & _ & _ & _ & _ & G1 & G2). rewrite E1 in F1. injection F1 as <-.
  destruct (b_project_ok 1 1 20 None [[2%R]] (basis66 2) (M P) (basis66_of 2) HP) as (q2 & p2 & _ & _ & F2 & _ & _ & _ & _ & G3 & G4). rewrite E2 in F2. injection F2 as <-.
  assert (V1 : mget P 0 0 = 4%R). { specialize (G2 0 0 ltac:(lia) ltac:(lia)). unfold span in G2. cbn [bsum] in G2. rewrite (G1 0 0) in G2 by lia. unfold wip in G2. cbn in G2. cbn. rewrite G2. ring. }
  assert (V2 : mget P2 0 0 = 16%R). { specialize (G4 0 0 ltac:(lia) ltac:(lia)). unfold span in G4. cbn [bsum] in G4. rewrite (G3 0 0) in G4 by lia. unfold wip in G4. cbn in G4. cbn in V1 |- *. rewrite G4, V1. ring. }
  rewrite V1, V2 in H. unfold SpecEq.close in H. rewrite !Rabs_pos_eq in H by lra. lra.
Qed.
Example C66_example_multi : members [1; 1] [1; 1] [basis66 1; basis66 1] /\ Forall orthonormal [basis66 1; basis66 1] /\ Forall2 le [1; 1] [1; 1].
Proof.
  assert (Hm : member 1 1 (basis66 1)) by (split; [reflexivity|split; [reflexivity|]]; exists [[1%R]], None; apply basis66_of).
  assert (Ho : orthonormal (basis66 1)) by (exists 1, 1, None, [[1%R]]; split; [apply basis66_of|apply basis66_orth]).
  repeat split; auto; apply Hm.
Qed.
(* a user's class on states of size 2 that keeps the first entry; and one that forgets to flatten single states *)
Definition keep1 (a : arr) : res arr := match a with V v => Ok (V [vget v 0]) | M A => Ok (M [nth 0 A []]) end.
Definition sloppy1 (a : arr) : res arr := match a with V v => Ok (M [[vget v 0]]) | M A => Ok (M [nth 0 A []]) end.
Definition grow2 (a : arr) (l : option locsel) : res arr :=
  match l, a with
  | None, V v => Ok (V [vget v 0; 0%R]) | None, M A => Ok (M [nth 0 A []; map (fun _ => 0%R) (nth 0 A [])])
  | Some _, V _ => Ok (V []) | Some _, M _ => Ok (M [])
  end.
Definition y66 (n : nat) : mat := [[1; 2]; [3; 4]]%R.
Example C66_example_user_basis : v_basis (Some 2) keep1 grow2 (t_blocs grow2 (fun _ => [])) y66 = Ok tt.
Proof.
  apply (user_basis 2 2 y66 keep1 grow2 (fun _ => []) [[1; 2]]%R (V [1%R]) (M [[1; 2]; [0; 0]]%R) (V [1; 0]%R) (M []) (M [[1; 2]]%R) [[1; 2]; [0; 0]]%R); try reflexivity; try lia.
  - split; repeat constructor. - constructor. - exists 2, 2. split; repeat constructor. - exists 0, 2. split; constructor. - split; repeat constructor.
  - split; [reflexivity|]. split; [eauto|]. split; [eauto|]. eexists. split; [reflexivity|]. split; [split; repeat constructor|]. split; [apply near_refl|]. exists []. split; [reflexivity|]. split; [split; constructor|]. cbn. intros; lia.
Qed.
Example C66_example_user_basis_rejected : v_basis (Some 2) sloppy1 grow2 (t_blocs grow2 (fun _ => [])) y66 = Err VerificationError.
Proof. reflexivity. Qed.

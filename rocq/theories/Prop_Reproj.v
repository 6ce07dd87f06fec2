(* Prop_Reproj.v -- property C48: re-projected data and what is learned from them. *)
From Coq Require Import ZArith String Lia Lra List.
From Verif Require Import MonoEx ReprojFinal.
#[local] Open Scope nat_scope.

(* C48: reproject_discrete starts at the projected initial condition; every later column is the projection of f at the reconstruction of the column before.  f is any function. *)
Theorem C48_discrete_recurrence :
  forall f B q0 k inputs Q n r,
  0 < n -> 0 < r -> is_mat n r B ->
  reproject_discrete f B (V q0) (Z.of_nat k) inputs = Ok Q ->
  is_vec n q0 /\ 0 < k /\ is_mat r k Q /\ colv r Q 0 = matvec (mT B) q0 /\
  forall j, j + 1 < k -> exists u y, input_at inputs j = Ok u /\ f (matvec B (colv r Q j)) u = Ok y /\ is_vec n y /\ colv r Q (j + 1) = matvec (mT B) y.
Proof. exact discrete_recurrence. Qed.
Print Assumptions C48_discrete_recurrence.

(* C48: an initial condition of the wrong shape and a negative number of steps are rejected. *)
Theorem C48_discrete_rejects :
  forall f B init k inputs,
  (match init with V q0 => length q0 <> nrows B | M _ => True end \/ (k < 0)%Z) -> reproject_discrete f B init k inputs = Err ValueError.
Proof. exact discrete_rejects. Qed.
Print Assumptions C48_discrete_rejects.

(* C48: reproject_continuous returns the projected states and, for each of them, the projection of f at its reconstruction. *)
Theorem C48_continuous_columns :
  forall f B Q inputs n r k S D,
  0 < n -> 0 < r -> is_mat n r B -> is_mat n k Q ->
  reproject_continuous f B (M Q) inputs = Ok (S, D) ->
  S = matmul (mT B) Q /\ is_mat r k D /\
  forall j, j < k -> exists u y, input_at inputs j = Ok u /\ f (matvec B (colv r S j)) u = Ok y /\ is_vec n y /\ colv r D j = matvec (mT B) y.
Proof. exact continuous_columns. Qed.
Print Assumptions C48_continuous_columns.

(* C48: states with the wrong number of rows are rejected. *)
Theorem C48_continuous_rejects :
  forall f B states inputs,
  (match states with V q => length q | M Q => nrows Q end) <> nrows B -> reproject_continuous f B states inputs = Err ValueError.
Proof. exact continuous_rejects. Qed.
Print Assumptions C48_continuous_rejects.

(* C48: if f is a full-order model, reproject_discrete returns exactly what predict() of the Galerkin reduced model returns, for every length. *)
Theorem C48_discrete_is_galerkin :
  forall (X : lsx) (solve : mat -> mat -> res mat) (junk : nat -> vec) (d d' : model) (n r : nat) (B : mat) (f : vec -> option uin -> res vec),
  trained X d n -> solve_spec solve -> (forall k, length (junk k) = k) -> orthobasis n r B -> galerkin_model solve junk d B None = Ok d' -> simulates f d n ->
  forall q0 k inputs,
  is_vec n q0 -> 1 <= k -> driven d (k - 1) inputs ->
    exists Q, reproject_discrete f B (V q0) (Z.of_nat k) inputs = Ok Q /\ is_mat r k Q /\ predict d' (V (matvec (mT B) q0)) (Z.of_nat k) (option_map UArr inputs) = Ok Q.
Proof. exact discrete_is_predict. Qed.
Print Assumptions C48_discrete_is_galerkin.

(* C48: if f is a full-order model, the derivatives of reproject_continuous are exactly the Galerkin right-hand sides at the returned states. *)
Theorem C48_continuous_is_galerkin :
  forall (X : lsx) (solve : mat -> mat -> res mat) (junk : nat -> vec) (d d' : model) (n r : nat) (B : mat) (f : vec -> option uin -> res vec),
  trained X d n -> solve_spec solve -> (forall k, length (junk k) = k) -> orthobasis n r B -> galerkin_model solve junk d B None = Ok d' -> simulates f d n ->
  forall Q k inputs,
  is_mat n k Q -> driven d k inputs ->
    exists S D, reproject_continuous f B (M Q) inputs = Ok (S, D) /\ S = matmul (mT B) Q /\ is_mat r k S /\ is_mat r k D /\
      forall j, j < k -> rhs d' (V (colv r S j)) (ucol inputs j) = Ok (V (colv r D j)).
Proof. exact continuous_is_rhs. Qed.
Print Assumptions C48_continuous_is_galerkin.

(* C48: a model of the same structure fitted to the re-projected data does at least as well as the Galerkin operators: with the plain solver the residual is zero, and if the data matrix has independent columns, the learned operators are the Galerkin operators; with a regularized solver residual plus penalty is at most the penalty of the Galerkin operators. *)
Theorem C48_learn_continuous :
  forall (X : lsx) (solve : mat -> mat -> res mat) (junk : nat -> vec) (d d' : model) (n r : nat) (B : mat) (f : vec -> option uin -> res vec),
  trained X d n -> solve_spec solve -> (forall k, length (junk k) = k) -> orthobasis n r B -> galerkin_model solve junk d B None = Ok d' -> simulates f d n ->
  forall Q k inputs S D e e',
  is_mat n k Q -> 0 < k -> driven d k inputs -> reproject_continuous f B (M Q) inputs = Ok (S, D) ->
    reach X e -> learns_all_of e d -> fit X e (M S) (M D) inputs = (e', Ok tt) ->
    (forall s, m_solver e = Some s -> exists O Og x, operator_matrix e' = Ok O /\ operator_matrix (with_ops (m_ops d') e') = Ok Og /\ residual e' r k S D inputs x /\
       forall pen, penalty s (ncols O) = Some pen -> (x + bsum r (pen O) <= bsum r (pen Og))%R) /\
    (forall p, m_solver e = Some (LPlain p) -> residual e' r k S D inputs 0 /\
       forall Dm w, assemble e' S (option_map (fun u => M (atleast_2d u)) inputs) = Ok Dm -> independent_columns k w Dm -> m_ops e' = m_ops d').
Proof. exact learn_continuous. Qed.
Print Assumptions C48_learn_continuous.

(* C48: the same for discrete models. *)
Theorem C48_learn_discrete :
  forall (X : lsx) (solve : mat -> mat -> res mat) (junk : nat -> vec) (d d' : model) (n r : nat) (B : mat) (f : vec -> option uin -> res vec),
  trained X d n -> solve_spec solve -> (forall k, length (junk k) = k) -> orthobasis n r B -> galerkin_model solve junk d B None = Ok d' -> simulates f d n ->
  forall q0 k inputs Q e e',
  is_vec n q0 -> 1 < k -> driven d (k - 1) inputs -> reproject_discrete f B (V q0) (Z.of_nat k) inputs = Ok Q ->
    reach X e -> learns_all_of e d -> discrete_fit X e (M Q) None inputs = (e', Ok tt) ->
    let S := map (@removelast R) Q in let D := map (@tl R) Q in let U := option_map (cut (k - 1)) inputs in
    (forall s, m_solver e = Some s -> exists O Og x, operator_matrix e' = Ok O /\ operator_matrix (with_ops (m_ops d') e') = Ok Og /\ residual e' r (k - 1) S D U x /\
       forall pen, penalty s (ncols O) = Some pen -> (x + bsum r (pen O) <= bsum r (pen Og))%R) /\
    (forall p, m_solver e = Some (LPlain p) -> residual e' r (k - 1) S D U 0 /\
       forall Dm w, assemble e' S (option_map (fun u => M (atleast_2d u)) U) = Ok Dm -> independent_columns (k - 1) w Dm -> m_ops e' = m_ops d').
Proof. exact learn_discrete. Qed.
Print Assumptions C48_learn_discrete.

(* the hypotheses are met: the full-order model q' = diag(2, 3) q, the basis [1, 0], one snapshot; the learned model is q' = 2 q *)
Definition solve0 : mat -> mat -> res mat := fun _ _ => Err LinAlgError.
Lemma solve0_ok : solve_spec solve0. Proof. unfold solve_spec, solve0. intros. discriminate. Qed.
Definition junk0 (k : nat) : vec := repeat 0%R k.
Definition dF (kd : kind) : model := {| m_kind := kd; m_frozen := false; m_ops := [knw (OLin [[2; 0]; [0; 3]]%R)]; m_infer := []; m_known := [0]; m_hasin := false; m_r := Some 2; m_m := Some 0;
  m_intrusive := true; m_solver := None |}.
Lemma dF_trained kd : trained X0 (dF kd) 2.
Proof. split; [exact X0_ok|]. split; [|split; reflexivity]. apply (reach_new X0 kd false [AOp (knw (OLin [[2; 0]; [0; 3]]%R))] SNone); [|exact I|reflexivity].
  constructor; [|constructor]. apply (knw_valid 2 1); [lia|lia|split; repeat constructor]. Qed.
Definition fF (kd : kind) (x : vec) (u : option uin) : res vec := rhs_vec (dF kd) x (option_map (fun u => V (uvec u)) u).
Lemma basis10 : orthobasis 2 1 [[1]; [0]]%R.
Proof. split; [lia|]. split; [lia|]. split; [split; repeat constructor|]. cbn. do 2 f_equal. ring. Qed.
Example C48_continuous_example : trained X0 (dF KContinuous) 2 /\ simulates (fF KContinuous) (dF KContinuous) 2 /\ orthobasis 2 1 [[1]; [0]]%R /\
  (exists d', galerkin_model solve0 junk0 (dF KContinuous) [[1]; [0]]%R None = Ok d') /\ driven (dF KContinuous) 1 None /\
  reproject_continuous (fF KContinuous) [[1]; [0]]%R (M [[1]; [5]]%R) None = Ok ([[1]], [[2]])%R /\
  reach X0 dA /\ learns_all_of dA (dF KContinuous) /\ m_solver dA = Some (LPlain {| pl_opts := no_opts; pl_data := None |}) /\
  exists e', fit X0 dA (M [[1]]%R) (M [[2]]%R) None = (e', Ok tt) /\ assemble e' [[1]]%R None = Ok [[1]]%R /\ independent_columns 1 1 [[1]]%R.
Proof.
  split; [apply dF_trained|]. split; [intros x u _; reflexivity|]. split; [exact basis10|]. split.
  { destruct basis10 as (_ & _ & Hb & HO). apply (C59_def X0 solve0 junk0 _ 2 1 _ None (dF_trained KContinuous) solve0_ok); auto; try (intros k; apply repeat_length). intros o dg H [<-|[]]. discriminate. }
  split; [left; split; reflexivity|]. split. { cbn. do 2 f_equal; [do 2 f_equal; ring|]. do 2 f_equal. ring. }
  split; [exact dA_reach|]. split; [split; reflexivity|]. split; [reflexivity|]. exists dA1. split.
  { unfold fit. change (m_frozen dA) with false. change (m_intrusive dA) with false. cbv iota.
    assert (E : fit_solver X0 dA (M [[1]]%R) (M [[2]]%R) None = (with_solver (Some s12) (with_m (Some 0) (with_r (Some 1) dA)), Ok tt)) by reflexivity. rewrite E. cbn [seqm].
    unfold refit. cbn [with_solver m_intrusive with_m with_r dA m_solver]. rewrite solve12. reflexivity. }
  split; [reflexivity|]. split; [split; repeat constructor|]. intros x Hx HZ b Hb. specialize (HZ 0%nat ltac:(lia)). destruct b; [|lia]. cbn in HZ. lra.
Qed.
Definition dAd : model := {| m_kind := KDiscrete; m_frozen := false; m_ops := [unk CLin]; m_infer := [0]; m_known := []; m_hasin := false; m_r := None; m_m := Some 0;
  m_intrusive := false; m_solver := Some new_plain |}.
Example C48_discrete_example : trained X0 (dF KDiscrete) 2 /\ driven (dF KDiscrete) (2 - 1) None /\ is_vec 2 [1; 5]%R /\
  reproject_discrete (fF KDiscrete) [[1]; [0]]%R (V [1; 5]%R) (Z.of_nat 2) None = Ok [[1; 2]]%R /\
  reach X0 dAd /\ learns_all_of dAd (dF KDiscrete) /\ exists e', discrete_fit X0 dAd (M [[1; 2]]%R) None None = (e', Ok tt) /\ m_ops e' = [knw (OLin [[2]]%R)].
Proof.
  split; [apply dF_trained|]. split; [left; split; reflexivity|]. split; [reflexivity|]. split. { unfold reproject_discrete. cbn [nrows ncols length Nat.eqb negb]. change (Z.of_nat 2 <? 0)%Z with false. change (Z.of_nat 2 =? 0)%Z with false. rewrite Nat2Z.id. cbn. do 2 f_equal. f_equal; [ring|]. f_equal. ring. }
  split; [apply (reach_new X0 KDiscrete false [AStr "A"%string] SNone); [repeat constructor|exact I|reflexivity]|]. split; [split; reflexivity|]. eexists. split.
  { change (discrete_fit X0 dAd (M [[1; 2]]%R) None None) with (fit X0 dAd (M [[1]]%R) (M [[2]]%R) None). unfold fit. change (m_frozen dAd) with false. change (m_intrusive dAd) with false. cbv iota.
    assert (E : fit_solver X0 dAd (M [[1]]%R) (M [[2]]%R) None = (with_solver (Some s12) (with_m (Some 0) (with_r (Some 1) dAd)), Ok tt)) by reflexivity. rewrite E. cbn [seqm].
    unfold refit. cbn [with_solver m_intrusive with_m with_r dAd m_solver]. rewrite solve12. reflexivity. }
  reflexivity.
Qed.

(* RomEx.v -- concrete reduced-order models, and the claims that fail. *)
From Coq Require Import ZArith Lra Lia.
From Verif Require Import LinAlg MatAlg MonoEx PreFinal SpecRom RomParts RomProofs RomLift RomFit RomRun.
#[local] Open Scope nat_scope.

(* shift, scale, then a weighted basis vector *)
Definition exb : basis := BLin {| lb_entries := [[1 / 2]; [0]]%R; lb_weights := Some (WDiag [4; 1]%R); lb_n := Some 2; lb_r := 1; lb_name := None |}.
Definition exP : parts := {| rp_lift := None; rp_tf := Some (TPipe [TShift [1; 2]%R None; TScale (Sc 2) (Some 2) None] None); rp_basis := Some (BOne exb) |}.
Lemma exP_trained : trained_parts 2 1 exP.
Proof.
  split; [exact case_trained|]. cbn. exists (Some (WDiag [4; 1]%R)), [[1 / 2]; [0]]%R. split.
  - split; [lia|]. split; [lia|]. split; [split; repeat constructor|]. split; [reflexivity|]. split; reflexivity.
  - intros [|a] [|b] Ha Hb; try lia. unfold wip. cbn. field.
Qed.
Lemma exP_encode : encode1 exP (M [[5 / 4; 9 / 4]; [7; 8]]%R) = Ok (M [[1; 5]]%R).
Proof. cbn. repeat f_equal; field. Qed.
Definition exR : rom := {| rm_parts := exP; rm_ddt := None; rm_model := dK |}.
Definition exR1 : rom := {| rm_parts := exP; rm_ddt := None; rm_model := dK1 |}.
Lemma fit_calls LX r T ft fb Qs Zs Us P es ds us Q L U d : check_fit_args (rm_cont r) (m_hasin (rm_model r)) (fst (train_args T)) (snd (train_args T)) (rm_ddt r) = Ok tt ->
  fix_single T = Ok (Qs, Zs, Us) -> process_training (rm_parts r) (rm_ddt r) (rm_cont r) ft fb Qs Zs Us = Ok (P, (es, ds, us)) ->
  hstack_opt us = Ok U -> hstack_arr es = Ok Q -> hstack_arr ds = Ok L -> model_fit LX (rm_model r) Q L U = (d, Ok tt) ->
  rom_fit LX r T ft fb = ({| rm_parts := P; rm_ddt := rm_ddt r; rm_model := d |}, Ok tt).
Proof. intros E1 E2 E3 E4 E5 E6 E7. unfold rom_fit, rom_fit_with. rewrite E1. cbn [bind]. rewrite E2. cbn [bind]. rewrite E3. rewrite E4. cbn [bind]. rewrite E5. cbn [bind]. rewrite E6. cbn [bind]. now rewrite E7. Qed.
Lemma dK1_fit_M : discrete_fit X0 dK (M [[1]]%R) (Some (M [[5]]%R)) None = (dK1, Ok tt).
Proof. rewrite <- dK1_fit. reflexivity. Qed.
Lemma exR_fit : rom_fit X0 exR (Single [[5 / 4; 9 / 4]; [7; 8]]%R None None) false None = (exR1, Ok tt).
Proof.
  assert (EP : process_training exP None false false None [M [[5 / 4; 9 / 4]; [7; 8]]%R] None None = Ok (exP, ([M [[1]]%R], [M [[5]]%R], None))).
  { cbn. replace (0 + (1 / 2 * 4 * ((5 / 4 - 1) * 2) + (0 * 1 * ((7 - 2) * 2) + 0)))%R with 1%R by field. repeat f_equal; field. }
  eapply (fit_calls X0 exR); [reflexivity|reflexivity|exact EP|reflexivity|reflexivity|reflexivity|exact dK1_fit_M].
Qed.
Lemma exR1_trained : SpecMono.trained X0 dK1 1. Proof. split; [exact X0_ok|]. split; [exact dK1_reach|]. split; reflexivity. Qed.
(* ... and a time-continuous one without transformer or basis *)
Definition noP : parts := {| rp_lift := None; rp_tf := None; rp_basis := None |}.
Lemma dA1_fit_M u : u = None \/ u = Some (M [[0]]%R) -> MonoModel.fit X0 dA (M [[1]]%R) (M [[2]]%R) u = (dA1, Ok tt).
Proof. rewrite <- dA1_fit. intros [->| ->]; reflexivity. Qed.
Lemma exC_fit : rom_fit X0 {| rm_parts := noP; rm_ddt := None; rm_model := dA |} (Several [M [[1]]%R] (Some [M [[2]]%R]) None) false None =
  ({| rm_parts := noP; rm_ddt := None; rm_model := dA1 |}, Ok tt).
Proof.
  eapply fit_calls; [reflexivity|reflexivity|reflexivity|reflexivity|reflexivity|reflexivity|apply dA1_fit_M; auto].
Qed.
(* with an estimator, a list of inputs that is too short hides the other trajectories *)
Lemma short_inputs : exists LX r q1 q2 u r', lsx_ok LX /\ rm_cont r = true /\ q1 <> q2 /\
  rom_fit LX r (Several [q1; q2] None (Some [u])) false None = (r', Ok tt) /\ rom_fit LX r (Several [q1] None (Some [u])) false None = (r', Ok tt).
Proof.
  set (est := (fun q u => match q with M Q => Ok (Q, [[2%R]], u) | V _ => Err ValueError end) : ddter).
  exists X0, {| rm_parts := noP; rm_ddt := Some est; rm_model := dA |}, (M [[1]]%R), (M [[7]]%R), (M [[0]]%R), {| rm_parts := noP; rm_ddt := Some est; rm_model := dA1 |}.
  split; [exact X0_ok|]. split; [reflexivity|]. split; [intros [= H]; lra|]. split.
  { eapply fit_calls; [reflexivity|reflexivity|reflexivity|reflexivity|reflexivity|reflexivity|apply dA1_fit_M; auto]. }
  eapply fit_calls; [reflexivity|reflexivity|reflexivity|reflexivity|reflexivity|reflexivity|apply dA1_fit_M; auto].
Qed.

(* OdeEx.v -- a time-continuous model with an input, its trajectory, and an integrator. *)
From Coq Require Import ZArith Reals Lra Lia.
From Verif Require Import MonoStmts MonoEx RomEx RegselEx.
From Verif Require Export OdeProofs.
#[local] Open Scope nat_scope.

(* dq/dt = 2 q + u *)
Definition dU : model := {| m_kind := KContinuous; m_frozen := false; m_ops := [knw (OLin [[2]]%R); knw (OInp [[1]]%R)]; m_infer := []; m_known := [0; 1]; m_hasin := true; m_r := Some 1; m_m := Some 1;
  m_intrusive := true; m_solver := None |}.
Lemma dU_made : mk_model KContinuous false [AOp (knw (OLin [[2]]%R)); AOp (knw (OInp [[1]]%R))] SNone = Ok dU. Proof. reflexivity. Qed.
Lemma dU_trained : SpecMono.trained X0 dU 1.
Proof. split; [exact X0_ok|]. split; [|split; reflexivity]. apply (reach_new X0 KContinuous false [AOp (knw (OLin [[2]]%R)); AOp (knw (OInp [[1]]%R))] SNone); [|exact I|exact dU_made].
  constructor; [|constructor; [|constructor]]; cbn [valid_arg]; apply (knw_valid 1 1); auto; cbn; split; repeat constructor. Qed.

(* linear interpolation between two times *)
Definition line2 : vec -> mat -> res (R -> vec) := fun t U =>
  match t with
  | [t0; t1] => if Req_EM_T t0 t1 then Err ValueError else Ok (fun x => map (fun row => (vget row 0 + (x - t0) / (t1 - t0) * (vget row 1 - vget row 0))%R) U)
  | _ => Err ValueError
  end.
Lemma line2_ok : spline_ok line2.
Proof. intros t m U g Hm E. unfold line2 in E. destruct t as [|t0 [|t1 [|]]]; try discriminate. destruct (Req_EM_T t0 t1) as [|Hne]; [discriminate|]. injection E as <-. destruct Hm as (Hl & HU). split.
  - intros x. unfold is_vec. rewrite map_length. auto.
  - intros j Hj. unfold colv. rewrite <- Hl. apply (vec_ext (length U)); [unfold is_vec; rewrite map_length; auto|unfold is_vec; rewrite map_length, seq_length; auto|]. intros i Hi.
    change (nth i (map (fun row => (vget row 0 + (vget [t0; t1] j - t0) / (t1 - t0) * (vget row 1 - vget row 0))%R) U) 0%R = nth i (map (fun i => mget U i j) (seq 0 (length U))) 0%R).
    rewrite (nth_map_in (fun row => (vget row 0 + (vget [t0; t1] j - t0) / (t1 - t0) * (vget row 1 - vget row 0))%R) U i 0%R []) by auto.
    rewrite (nth_map_in (fun i => mget U i j) (seq 0 (length U)) i 0%R 0) by (rewrite seq_length; auto). rewrite seq_nth by auto.
    unfold mget. cbn [Nat.add]. assert (t1 - t0 <> 0)%R by lra. destruct j as [|[|j]]; [| |cbn in Hj; lia]; unfold vget; cbn [nth]; field; auto. Qed.

Definition uf (t : R) : R := (1 - 2 * t)%R.
Definition yt (t : R) : vec := [t].
Lemma times01 : time_domain [0; 1]%R 0 1.
Proof. split; [discriminate|]. split; [reflexivity|]. split; [reflexivity|]. intros i j Hij Hj. cbn in Hj. assert (i = 0) as -> by lia. assert (j = 1) as -> by lia. cbn. lra. Qed.
Lemma signal_f : signal line2 dU [0; 1]%R 0 1 (Some (InFun (FNum uf))) (fun t => Some [uf t]).
Proof. exists 1. split; auto. Qed.
Lemma signal_a : signal line2 dU [0; 1]%R 0 1 (Some (InArr (V [1; -1]%R))) (fun t => Some [uf t]).
Proof. exists 1. split; auto. split; [split; repeat constructor|]. cbn [line2 atleast_2d]. unfold line2. destruct (Req_EM_T 0 1) as [H|_]; [lra|]. eexists. split; [reflexivity|]. intros t _. cbn. unfold uf. do 2 f_equal. field. Qed.
Lemma bounded_f : bounded_signal (fun t => Some [uf t]) 0 1.
Proof. exists 1%R. intros t u i Ht [= <-]. destruct i as [|[|i]]; cbn; [unfold uf; apply Rabs_le; lra| |]; rewrite Rabs_R0; lra. Qed.
Lemma velocity_ex t : velocity dU 1 (yt t) (Some [uf t]) [1%R].
Proof. split; [reflexivity|]. exists [[2 * t]; [uf t]]%R. split.
  - constructor; [|constructor; [|constructor]]; (split; [|reflexivity]); cbn; unfold yt, vget; cbn; do 3 f_equal; ring.
  - intros [|i] Hi; [|lia]. unfold lsum. cbn. unfold uf. ring. Qed.
Lemma trajectory_ex : trajectory dU 1 (fun t => Some [uf t]) 0 1 [0%R] yt.
Proof. split; [reflexivity|]. split; [reflexivity|]. split.
  - intros t [|i] _ Hi; [|lia]. apply derivable_continuous_pt, derivable_pt_id.
  - intros t _. exists [1%R]. split; [apply velocity_ex|]. intros [|i] Hi; [|lia]. apply derivable_pt_lim_id. Qed.
(* an integrator that is right about this problem *)
Definition solve_ex : ivp -> res sol := fun p => Ok [map F (iv_times p)].
Definition no_junk (n : nat) : vec := repeat 0%R n.
Lemma solve_ex_accurate needs inputs : signal line2 dU [0; 1]%R 0 1 inputs (fun t => Some [uf t]) ->
  forall p s, ode_problem line2 no_junk dU needs (V [0]%R) (V [0; 1]%R) inputs = Ok p -> solve_ex p = Ok s -> exists z, ivp_solution 1 p z /\ samples 1 0 (iv_times p) z s.
Proof. intros HU p s Ep [= <-]. exists yt. assert (Hq : is_vec 1 [0%R]) by reflexivity. split; [eapply (problem_solutions line2 no_junk X0 dU 1); eauto using dU_trained, line2_ok, times01, trajectory_ex|].
  exists [iv_times p]. split; [split; repeat constructor|]. split; [reflexivity|]. intros [|i] j Hi Hj; [|lia]. cbn. unfold mget, yt, vget. cbn. rewrite Rminus_diag_eq, Rabs_R0 by reflexivity. lra. Qed.
Lemma predicted_ex : cont_predict line2 solve_ex no_junk dU true (V [0]%R) (V [0; 1]%R) (Some (InArr (V [1; -1]%R))) = Ok [[F 0; F 1]].
Proof. destruct (problem_ok line2 no_junk X0 dU 1 true [0]%R [0; 1]%R 0 1 _ _ dU_trained eq_refl line2_ok times01 signal_a) as (p & E & _ & _ & _ & Et & _).
  unfold cont_predict. rewrite E. cbn [bind]. unfold solve_ex. rewrite Et. reflexivity. Qed.
(* a reduced-order model around it: parts without transformer and basis *)
Definition romU : rom := {| rm_parts := noP; rm_ddt := None; rm_model := dU |}.
Lemma rom_predicted : rom_predict_continuous line2 solve_ex no_junk romU true (V [0]%R) (V [0; 1]%R) (Some (InArr (V [1; -1]%R))) = Ok (M [[0; 1]]%R).
Proof. unfold rom_predict_continuous, rom_predict_with. cbn [romU rm_parts rm_model]. change (encode1 noP (V [0]%R)) with (Ok (V [0]%R)). cbn [bind]. rewrite predicted_ex. reflexivity. Qed.

(* TimerFinal.v -- TimedBlock: when it times out, and what fails (C47). *)
From Verif Require Export TimerProofs.
#[local] Open Scope R_scope.

Lemma exact_timeout x l p w : mk_limit (Some x) = Some l -> sane p -> no_limit p -> no_try p ->
  let '(w0, o0) := exec p (set_alarm None w) in let '(w', o) := exec (Block (Some x) p) w in
  (now w0 < now w + l -> o = o0 /\ now w' = now w0 /\ (o0 = Done -> elapsed w' = Some (now w0 - now w) :: elapsed w0) /\ (o0 <> Done -> elapsed w' = None :: elapsed w0)) /\
  (now w + l <= now w0 -> o = Raised TimeoutError /\ now w' = now w + l).
Proof.
  intros El HS HL HT. assert (Hl := limit_pos _ _ El). cbn [exec]. rewrite El.
  assert (H := body_run p (enter (Some l) w) (now w + l) HS HL HT eq_refl ltac:(cbn; lra) eq_refl).
  change (set_alarm None (enter (Some l) w)) with (set_hand HTimed (set_alarm None w)) in H. rewrite (hand_irrelevant p (set_alarm None w) HTimed HL eq_refl) in H.
  destruct (exec p (set_alarm None w)) as [w0 o0] eqn:E0. cbn [fst snd] in H. destruct (exec p (enter (Some l) w)) as [w1 o1] eqn:E1. cbn [set_hand now elapsed] in H. destruct H as [A B].
  assert (NK : o0 <> Killed) by (eapply never_killed; [|exact E0]; reflexivity).
  destruct (Rlt_dec (now w0) (now w + l)) as [K|K].
  - destruct (A K) as (N1 & -> & _ & _ & L1). destruct o0; [| |congruence]; cbn [exit add_elapsed set_alarm now elapsed]; rewrite ?N1, ?L1; (split; intros; [|lra]); (split; [auto|]); (split; [auto|]); split; auto; try congruence; discriminate.
  - destruct (B ltac:(lra)) as (N1 & -> & _). cbn. split; intros; [lra|auto].
Qed.
Lemma no_limit_transparent p w : let '(w0, o0) := exec p w in let '(w', o) := exec (Block None p) w in
  o = o0 /\ now w' = now w0 /\ alarm w' = alarm w0 /\ hand w' = hand w0.
Proof. cbn [exec]. change (mk_limit None) with (@None R). cbn [enter]. destruct (exec p w) as [w0 [|e|]]; cbn; auto. Qed.

Definition w00 : world := {| now := 0; alarm := None; hand := HDefault; elapsed := [] |}.
Lemma lim x : 1 <= x -> IZR (Int_part x) = x -> mk_limit (Some x) = Some x.
Proof. intros H1 H2. cbn. unfold trunc. destruct Rle_dec; [|lra]. rewrite H2, Rmax_left by lra. reflexivity. Qed.
Lemma ip n : IZR (Int_part (IZR n)) = IZR n.
Proof. f_equal. unfold Int_part. rewrite <- (tech_up (IZR n) (n + 1)); [lia| |]; rewrite plus_IZR; lra. Qed.
(* an inner block switches off the alarm of the outer one *)
Lemma nested_cancels : exists p, sane p /\ no_own_timeout p /\ no_try p /\ limits (Block (Some 5) p) = [5; 3] /\
  forall d, 0 <= d -> exists w', exec (Block (Some 5) (Seq p (Work d))) w00 = (w', Done) /\ now w' = 1 + d.
Proof.
  exists (Block (Some 3) (Work 1)). split; [cbn; lra|]. split; [exact I|]. split; [exact I|]. assert (L5 := lim 5 ltac:(lra) (ip 5)). assert (L3 := lim 3 ltac:(lra) (ip 3)).
  cbn [limits]. rewrite L5, L3. split; auto. intros d Hd. cbn [exec]. rewrite L5, L3. cbn [enter]. unfold work at 1. cbn. destruct (Rle_dec (0 + 3) (0 + 1)); [lra|]. cbn. unfold work. cbn. eexists. split; [reflexivity|]. cbn. lra.
Qed.
(* a handler and an alarm of the caller are lost *)
Lemma caller_alarm_lost : exists w n t, hand w = HUser n /\ alarm w = Some t /\ now w + 1 < t /\
  exists w', exec (Block (Some 5) (Work 1)) w = (w', Done) /\ now w' < t /\ hand w' <> HUser n /\ alarm w' = None.
Proof.
  exists {| now := 0; alarm := Some 60; hand := HUser 7; elapsed := [] |}, 7%nat, 60. split; [reflexivity|]. split; [reflexivity|]. split; [cbn; lra|].
  cbn [exec]. rewrite (lim 5 ltac:(lra) (ip 5)). cbn [enter]. unfold work. cbn. destruct (Rle_dec (0 + 5) (0 + 1)); [lra|]. cbn. eexists. split; [reflexivity|]. cbn. split; [lra|]. split; [discriminate|auto].
Qed.
(* a TimeoutError of the body is reported as a time-out, however early *)
Lemma own_timeout : exists w', exec (Block (Some 5) (Throw TimeoutError)) w00 = (w', Raised TimeoutError) /\ now w' < now w00 + 5.
Proof. cbn [exec]. destruct (limit_value 5) as (l & -> & _). cbn. eexists. split; [reflexivity|]. cbn. lra. Qed.
(* a body that catches the TimeoutError goes on without limit *)
Lemma swallowed : forall d, 0 <= d -> exists w', exec (Block (Some 5) (Seq (Try (Work 10) (Work 0)) (Work d))) w00 = (w', Done) /\ now w' = 5 + d.
Proof.
  intros d Hd. cbn [exec]. rewrite (lim 5 ltac:(lra) (ip 5)). cbn [enter]. unfold work at 1. cbn. destruct (Rle_dec (0 + 5) (0 + 10)); [|lra]. unfold work. cbn. eexists. split; [reflexivity|]. cbn. lra.
Qed.

(* Prop_Timer.v -- property C47: timed blocks. *)
From Coq Require Import Lia Lra List.
From Verif Require Import TimerFinal.
#[local] Open Scope R_scope.

(* C47: the limit is a number of whole seconds, at least one, and, if at least one second was asked for, never longer than asked. *)
Theorem C47_limit :
  forall x,
  exists l, mk_limit (Some x) = Some l /\ 1 <= l /\ (1 <= x -> x - 1 < l <= x) /\ (x < 1 -> l = 1).
Proof. exact limit_value. Qed.
Print Assumptions C47_limit.

(* C47: a body without limited blocks of its own and without try behaves inside a block exactly as outside if it ends before the limit, and is stopped with TimeoutError at the limit otherwise.  The elapsed time is recorded exactly when no exception is raised. *)
Theorem C47_exact :
  forall x l p w,
  mk_limit (Some x) = Some l -> sane p -> no_limit p -> no_try p ->
  let '(w0, o0) := exec p (set_alarm None w) in let '(w', o) := exec (Block (Some x) p) w in
  (now w0 < now w + l -> o = o0 /\ now w' = now w0 /\ (o0 = Done -> elapsed w' = Some (now w0 - now w) :: elapsed w0) /\ (o0 <> Done -> elapsed w' = None :: elapsed w0)) /\
  (now w + l <= now w0 -> o = Raised TimeoutError /\ now w' = now w + l).
Proof. exact exact_timeout. Qed.
Print Assumptions C47_exact.

(* C47: any program, however nested, that does not raise TimeoutError by itself, raises it only after some limit has passed. *)
Theorem C47_only_after_limit :
  forall p w w',
  sane p -> no_own_timeout p -> quiet_world w -> exec p w = (w', Raised TimeoutError) -> exists l, In l (limits p) /\ now w + l <= now w'.
Proof. exact only_after_limit. Qed.
Print Assumptions C47_only_after_limit.

(* C47: after a block with a limit no alarm is pending, however the block ended. *)
Theorem C47_cancels_alarm :
  forall x p w w' o,
  exec (Block (Some x) p) w = (w', o) -> quiet_world w'.
Proof. exact cancels_alarm. Qed.
Print Assumptions C47_cancels_alarm.

(* C47: a program that starts without a pending alarm ends without one. *)
Theorem C47_no_alarm_left :
  forall p w w' o,
  sane p -> quiet_world w -> exec p w = (w', o) -> quiet_world w'.
Proof. exact no_alarm_left. Qed.
Print Assumptions C47_no_alarm_left.

(* C47: the alarms of blocks never end the process. *)
Theorem C47_never_killed :
  forall p w w' o,
  quiet_world w -> exec p w = (w', o) -> o <> Killed.
Proof. exact never_killed. Qed.
Print Assumptions C47_never_killed.

(* C47: a block without limit changes neither the outcome nor the alarm nor the handler. *)
Theorem C47_no_limit :
  forall p w,
  let '(w0, o0) := exec p w in let '(w', o) := exec (Block None p) w in
  o = o0 /\ now w' = now w0 /\ alarm w' = alarm w0 /\ hand w' = hand w0.
Proof. exact no_limit_transparent. Qed.
Print Assumptions C47_no_limit.

(* C47, false for nested limits: an inner block switches the alarm of the outer block off, and what follows runs without limit. *)
Theorem C47_nesting_refuted :
  exists p, sane p /\ no_own_timeout p /\ no_try p /\ limits (Block (Some 5) p) = [5; 3] /\
  forall d, 0 <= d -> exists w', exec (Block (Some 5) (Seq p (Work d))) w00 = (w', Done) /\ now w' = 1 + d.
Proof. exact nested_cancels. Qed.
Print Assumptions C47_nesting_refuted.

(* C47, false for handlers and alarms of the caller: both are lost. *)
Theorem C47_caller_alarm_refuted :
  exists w n t, hand w = HUser n /\ alarm w = Some t /\ now w + 1 < t /\
  exists w', exec (Block (Some 5) (Work 1)) w = (w', Done) /\ now w' < t /\ hand w' <> HUser n /\ alarm w' = None.
Proof. exact caller_alarm_lost. Qed.
Print Assumptions C47_caller_alarm_refuted.

(* C47, false for bodies that raise TimeoutError themselves: reported as time-out before the limit. *)
Theorem C47_own_timeout_refuted :
  exists w', exec (Block (Some 5) (Throw TimeoutError)) w00 = (w', Raised TimeoutError) /\ now w' < now w00 + 5.
Proof. exact own_timeout. Qed.
Print Assumptions C47_own_timeout_refuted.

(* C47, false for bodies that catch all exceptions: the block ends normally long after its limit. *)
Theorem C47_catching_refuted :
  forall d, 0 <= d -> exists w', exec (Block (Some 5) (Seq (Try (Work 10) (Work 0)) (Work d))) w00 = (w', Done) /\ now w' = 5 + d.
Proof. exact swallowed. Qed.
Print Assumptions C47_catching_refuted.

(* the hypotheses are met: a body of two seconds, and one of seven seconds, with a limit of 5.9 seconds (that is, 5) *)
Example C47_limit_example : mk_limit (Some 5.9) = Some 5.
Proof.
  cbn. unfold trunc. destruct Rle_dec; [|lra]. replace (Int_part 5.9) with 5%Z; [rewrite Rmax_left by lra; reflexivity|].
  unfold Int_part. rewrite <- (tech_up 5.9 6); [reflexivity| |]; lra.
Qed.
Example C47_example : forall d, 0 <= d -> sane (Seq (Work 2) (Work d)) /\ no_limit (Seq (Work 2) (Work d)) /\ no_try (Seq (Work 2) (Work d)) /\
  now (fst (exec (Seq (Work 2) (Work d)) (set_alarm None w00))) = 2 + d.
Proof. intros d Hd. cbn. repeat split; lra. Qed.
Example C47_nested_example : sane (Block (Some 9) (Block None (Throw (OtherExn 3)))) /\ quiet_world w00 /\ no_own_timeout (Block (Some 9) (Block None (Throw (OtherExn 3)))).
Proof. cbn. repeat split. discriminate. Qed.

(* TimerModel.v -- utils/_timer.py: TimedBlock.  The process has one clock, one alarm and one handler for it.  Messages,
   logging and the rebuffering of sys.stdout are not modelled; process time and wall time are the same clock.
   No proofs here. *)
From Verif Require Export LiftModel.
#[local] Open Scope R_scope.

Inductive exn := TimeoutError | OtherExn (n : nat).
(* what happens when the alarm rings: nothing was installed (the process ends), a handler of the caller that returns,
   or TimedBlock._signal_handler, which raises TimeoutError: _timer.py:127-129 *)
Inductive handler := HDefault | HUser (n : nat) | HTimed.
(* the clock, when the alarm is due, the handler, and the elapsed attributes of the blocks that have ended, latest first *)
Record world := { now : R; alarm : option R; hand : handler; elapsed : list (option R) }.
Inductive outcome := Done | Raised (e : exn) | Killed.

(* TimedBlock(message, timelimit): _timer.py:112-114 *)
Definition mk_limit (timelimit : option R) : option R := option_map (fun x => Rmax (trunc x) 1) timelimit.

(* programs: computing for some time, raising, sequencing, try/except Exception, with TimedBlock(timelimit=...) *)
Inductive prog :=
| Work (d : R)
| Throw (e : exn)
| Seq (p q : prog)
| Try (p q : prog)
| Block (timelimit : option R) (p : prog).

Definition set_now t w := {| now := t; alarm := alarm w; hand := hand w; elapsed := elapsed w |}.
Definition set_alarm a w := {| now := now w; alarm := a; hand := hand w; elapsed := elapsed w |}.
Definition set_hand h w := {| now := now w; alarm := alarm w; hand := h; elapsed := elapsed w |}.
Definition add_elapsed x w := {| now := now w; alarm := alarm w; hand := hand w; elapsed := x :: elapsed w |}.

(* computing for d seconds: the alarm rings when it is due *)
Definition work (d : R) (w : world) : world * outcome :=
  match alarm w with
  | Some t => if Rle_dec t (now w + d)
              then match hand w with
                   | HDefault => (set_alarm None (set_now t w), Killed)
                   | HUser _ => (set_alarm None (set_now (now w + d) w), Done)
                   | HTimed => (set_alarm None (set_now t w), Raised TimeoutError)
                   end
              else (set_now (now w + d) w, Done)
  | None => (set_now (now w + d) w, Done)
  end.
(* __enter__: _timer.py:136-146 *)
Definition enter (limit : option R) (w : world) : world :=
  match limit with Some l => set_alarm (Some (now w + l)) (set_hand HTimed w) | None => w end.
(* __exit__: _timer.py:148-179.  tic is the time of __enter__.  An exception leaves the elapsed attribute None. *)
Definition exit (limit : option R) (tic : R) (w : world) (o : outcome) : world * outcome :=
  let w1 := match limit with Some _ => set_alarm None w | None => w end in
  match o with
  | Killed => (w, Killed)
  | Raised e => (add_elapsed None w1, Raised e)            (* a TimeoutError is replaced by another TimeoutError *)
  | Done => (add_elapsed (Some (now w - tic)) w1, Done)
  end.
Fixpoint exec (p : prog) (w : world) : world * outcome :=
  match p with
  | Work d => work d w
  | Throw e => (w, Raised e)
  | Seq p q => match exec p w with (w1, Done) => exec q w1 | r => r end
  | Try p q => match exec p w with (w1, Raised _) => exec q w1 | r => r end
  | Block tl p => let l := mk_limit tl in let '(w1, o) := exec p (enter l w) in exit l (now w) w1 o
  end.

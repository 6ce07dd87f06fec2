(* TimerProofs.v -- proofs about TimedBlock. *)
From Verif Require Export SpecTimer.
#[local] Open Scope R_scope.

Lemma trunc_bounds x : 1 <= x -> x - 1 < trunc x <= x.
Proof. intros H. unfold trunc. destruct Rle_dec; [|lra]. destruct (base_Int_part x). lra. Qed.
Lemma limit_ok tl : mk_limit tl = None <-> tl = None.
Proof. destruct tl; cbn; split; congruence. Qed.
(* the limit is a whole number of seconds, at least one, and never longer than asked if at least one was asked *)
Lemma limit_value x : exists l, mk_limit (Some x) = Some l /\ 1 <= l /\ (1 <= x -> x - 1 < l <= x) /\ (x < 1 -> l = 1).
Proof.
  exists (Rmax (trunc x) 1). split; [reflexivity|]. split; [apply Rmax_r|]. split.
  - intros H. assert (K := trunc_bounds x H). unfold Rmax. destruct Rle_dec; lra.
  - intros H. unfold trunc, Rmax. destruct (Rle_dec 0 x).
    + destruct (base_Int_part x) as [H1 H2]. destruct Rle_dec as [|n]; auto. exfalso. apply n. lra.
    + destruct (base_Int_part (- x)) as [H1 H2]. destruct Rle_dec as [|n0]; auto. exfalso. apply n0.
      assert (HZ : (0 <= Int_part (- x))%Z). { destruct (Z.le_gt_cases 0 (Int_part (- x))) as [|K]; auto. assert (K2 : (Int_part (- x) <= -1)%Z) by lia. apply IZR_le in K2. lra. }
      apply IZR_le in HZ. lra.
Qed.
Lemma limit_pos tl l : mk_limit tl = Some l -> 1 <= l.
Proof. destruct tl as [x|]; cbn; [|discriminate]. intros [= <-]. apply Rmax_r. Qed.

Lemma exec_killed p : forall w w', exec p w = (w', Killed) -> alarm w' = None.
Proof.
  induction p as [d|e|p IHp q IHq|p IHp q IHq|tl p IHp]; intros w w' E; cbn [exec] in E.
  - unfold work in E. destruct (alarm w); [destruct Rle_dec; [destruct (hand w)|]|]; inversion E; reflexivity.
  - discriminate.
  - destruct (exec p w) as [w1 [|e|]] eqn:E1; [eauto|discriminate|]. injection E as <-. eauto.
  - destruct (exec p w) as [w1 [|e|]] eqn:E1; [discriminate|eauto|]. injection E as <-. eauto.
  - destruct (exec p (enter (mk_limit tl) w)) as [w1 [|e|]] eqn:E1; cbn [exit] in E; try discriminate. injection E as <-. eauto.
Qed.
(* facts about every run *)
Lemma exec_facts p : forall w w' o, sane p -> (forall t, alarm w = Some t -> now w <= t) -> exec p w = (w', o) ->
  now w <= now w' /\ (alarm w' = alarm w \/ alarm w' = None) /\ (forall t, alarm w' = Some t -> now w' <= t).
Proof.
  induction p as [d|e|p IHp q IHq|p IHp q IHq|tl p IHp]; intros w w' o HS HA E; cbn [exec sane] in *.
  - unfold work in E. destruct (alarm w) as [t|] eqn:Ea.
    + specialize (HA t eq_refl). destruct (Rle_dec t (now w + d)).
      * destruct (hand w); injection E as <- <-; cbn; (split; [lra|]); (split; [auto|discriminate]).
      * injection E as <- <-. cbn. rewrite Ea. split; [lra|]. split; auto. intros t' [= <-]. lra.
    + injection E as <- <-. cbn. rewrite Ea. split; [lra|]. split; auto. discriminate.
  - injection E as <- <-. split; [lra|]. auto.
  - destruct HS as [HS1 HS2]. destruct (exec p w) as [w1 o1] eqn:E1. destruct (IHp _ _ _ HS1 HA E1) as (H1 & H2 & H3). destruct o1; try (injection E as <- <-; auto).
    destruct (IHq _ _ _ HS2 H3 E) as (K1 & K2 & K3). split; [lra|]. split; auto. destruct H2 as [H2|H2], K2 as [K2|K2]; rewrite ?K2; auto.
  - destruct HS as [HS1 HS2]. destruct (exec p w) as [w1 o1] eqn:E1. destruct (IHp _ _ _ HS1 HA E1) as (H1 & H2 & H3). destruct o1; try (injection E as <- <-; auto).
    destruct (IHq _ _ _ HS2 H3 E) as (K1 & K2 & K3). split; [lra|]. split; auto. destruct H2 as [H2|H2], K2 as [K2|K2]; rewrite ?K2; auto.
  - destruct (exec p (enter (mk_limit tl) w)) as [w1 o1] eqn:E1.
    assert (HE : forall t, alarm (enter (mk_limit tl) w) = Some t -> now (enter (mk_limit tl) w) <= t).
    { destruct (mk_limit tl) as [l|] eqn:El; cbn; auto. intros t [= <-]. apply limit_pos in El. lra. }
    destruct (IHp _ _ _ HS HE E1) as (H1 & H2 & H3). assert (En : now (enter (mk_limit tl) w) = now w) by (destruct (mk_limit tl); reflexivity). rewrite En in H1.
    assert (Hk : alarm w1 = alarm w \/ alarm w1 = None \/ mk_limit tl <> None) by (destruct (mk_limit tl); [right; right; discriminate|tauto]).
    unfold exit in E. destruct (mk_limit tl) as [l|] eqn:El.
    + destruct o1; injection E as <- <-; cbn; (split; [lra|]); try (split; [auto|discriminate]).
      (* killed: the alarm has rung *)
      split; [|auto]. right. eapply exec_killed; eauto.
    + destruct o1; injection E as <- <-; cbn; cbn in H2; (split; [lra|]); split; auto.
Qed.
(* every block with a limit leaves no alarm behind, whatever its body did *)
Lemma cancels_alarm x p w w' o : exec (Block (Some x) p) w = (w', o) -> quiet_world w'.
Proof.
  cbn [exec]. destruct (limit_value x) as (l & -> & _). destruct (exec p (enter (Some l) w)) as [w1 o1] eqn:E1. unfold quiet_world. destruct o1; cbn [exit]; intros [= <- <-]; auto.
  eapply exec_killed; eauto.
Qed.
Lemma no_alarm_left p w w' o : sane p -> quiet_world w -> exec p w = (w', o) -> quiet_world w'.
Proof. intros HS HQ E. unfold quiet_world in *. destruct (exec_facts p w w' o HS ltac:(rewrite HQ; discriminate) E) as (_ & [H|H] & _); congruence. Qed.
(* alarms set by blocks never end the process *)
Lemma exec_safe p : forall w w' o, (alarm w <> None -> hand w = HTimed) -> exec p w = (w', o) -> o <> Killed /\ (hand w' = hand w \/ hand w' = HTimed) /\ (alarm w' <> None -> hand w' = HTimed).
Proof.
  induction p as [d|e|p IHp q IHq|p IHp q IHq|tl p IHp]; intros w w' o HA E; cbn [exec] in E.
  - unfold work in E. destruct (alarm w) as [t|] eqn:Ea.
    + rewrite HA in E by discriminate. destruct Rle_dec; injection E as <- <-; cbn; (split; [discriminate|]); split; auto; try congruence; intros _; apply HA; discriminate.
    + injection E as <- <-. cbn. split; [discriminate|]. split; auto; rewrite Ea; congruence.
  - injection E as <- <-. split; [discriminate|auto].
  - destruct (exec p w) as [w1 o1] eqn:E1. destruct (IHp _ _ _ HA E1) as (H1 & H2 & H3). destruct o1; try (injection E as <- <-; auto). destruct (IHq _ _ _ H3 E) as (K1 & K2 & K3).
    split; auto. split; auto. destruct H2 as [H2|H2], K2 as [K2|K2]; rewrite ?K2; auto.
  - destruct (exec p w) as [w1 o1] eqn:E1. destruct (IHp _ _ _ HA E1) as (H1 & H2 & H3). destruct o1; try (injection E as <- <-; auto). destruct (IHq _ _ _ H3 E) as (K1 & K2 & K3).
    split; auto. split; auto. destruct H2 as [H2|H2], K2 as [K2|K2]; rewrite ?K2; auto.
  - destruct (exec p (enter (mk_limit tl) w)) as [w1 o1] eqn:E1. destruct (IHp (enter (mk_limit tl) w) w1 o1) as (H1 & H2 & H3); auto. { destruct (mk_limit tl); cbn; auto. }
    destruct (mk_limit tl) as [l|] eqn:El; cbn [enter] in *.
    + cbn in H2. assert (Hh : hand w1 = HTimed) by tauto. destruct o1; [| |congruence]; cbn [exit] in E; injection E as <- <-; cbn; (split; [discriminate|]); rewrite Hh; auto.
    + destruct o1; [| |congruence]; cbn [exit] in E; injection E as <- <-; cbn; (split; [discriminate|]); auto.
Qed.
Lemma never_killed p w w' o : quiet_world w -> exec p w = (w', o) -> o <> Killed.
Proof. intros HQ E. apply (exec_safe p w w' o); auto. unfold quiet_world in HQ. congruence. Qed.

(* TimeoutError only after some limit has passed *)
Lemma timeout_facts p : forall w w', sane p -> no_own_timeout p -> (forall t, alarm w = Some t -> now w <= t) -> exec p w = (w', Raised TimeoutError) ->
  (exists t, alarm w = Some t /\ t <= now w') \/ exists l, In l (limits p) /\ now w + l <= now w'.
Proof.
  induction p as [d|e|p IHp q IHq|p IHp q IHq|tl p IHp]; intros w w' HS HN HA E; cbn [exec sane no_own_timeout limits] in *.
  - unfold work in E. destruct (alarm w) as [t|] eqn:Ea; [|discriminate]. destruct Rle_dec; [|discriminate]. destruct (hand w); try discriminate. injection E as <-. left. exists t. cbn. split; [auto|lra].
  - injection E as _ E. congruence.
  - destruct HS as [HS1 HS2], HN as [HN1 HN2]. destruct (exec p w) as [w1 o1] eqn:E1. destruct (exec_facts p w w1 o1 HS1 HA E1) as (F1 & F2 & F3). destruct o1; try discriminate.
    + destruct (exec_facts q w1 w' _ HS2 F3 E) as (G1 & _). destruct (IHq _ _ HS2 HN2 F3 E) as [(t & Ht & Hle)|(l & Hl & Hle)].
      * left. exists t. split; auto. destruct F2; congruence.
      * right. exists l. split; [apply in_or_app; auto|lra].
    + injection E as <- ->. destruct (IHp _ _ HS1 HN1 HA E1) as [H|(l & Hl & Hle)]; auto. right. exists l. split; [apply in_or_app; auto|auto].
  - destruct HS as [HS1 HS2], HN as [HN1 HN2]. destruct (exec p w) as [w1 o1] eqn:E1. destruct (exec_facts p w w1 o1 HS1 HA E1) as (F1 & F2 & F3). destruct o1; try discriminate.
    destruct (exec_facts q w1 w' _ HS2 F3 E) as (G1 & _). destruct (IHq _ _ HS2 HN2 F3 E) as [(t & Ht & Hle)|(l & Hl & Hle)].
    + left. exists t. split; auto. destruct F2; congruence.
    + right. exists l. split; [apply in_or_app; auto|lra].
  - destruct (exec p (enter (mk_limit tl) w)) as [w1 o1] eqn:E1. destruct (mk_limit tl) as [l|] eqn:El; cbn [enter] in *.
    + assert (El' := limit_pos _ _ El). destruct o1; cbn [exit] in E; try discriminate. injection E as <- ->. cbn in *.
      match type of E1 with exec p ?v = _ => assert (HA' : forall t, alarm v = Some t -> now v <= t) by (cbn; intros t [= <-]; lra) end.
      destruct (IHp _ _ HS HN HA' E1) as [(t & Ht & Hle)|(l' & Hl & Hle)]; cbn in *.
      * right. exists l. injection Ht as <-. split; [left; auto|lra].
      * right. exists l'. split; [right; auto|lra].
    + destruct o1; cbn [exit] in E; try discriminate. injection E as <- ->. cbn in *. apply (IHp _ _ HS HN HA E1).
Qed.
Lemma only_after_limit p w w' : sane p -> no_own_timeout p -> quiet_world w -> exec p w = (w', Raised TimeoutError) -> exists l, In l (limits p) /\ now w + l <= now w'.
Proof. intros HS HN HQ E. unfold quiet_world in HQ. destruct (timeout_facts p w w' HS HN ltac:(rewrite HQ; discriminate) E) as [(t & Ht & _)|H]; [congruence|auto]. Qed.

(* without alarms the handler does not matter *)
Lemma quiet_run p : forall v v1 o, no_limit p -> alarm v = None -> exec p v = (v1, o) -> alarm v1 = None.
Proof.
  induction p as [d|e|p IHp q IHq|p IHp q IHq|tl p IHp]; intros v v1 o HL Ha E; cbn [exec no_limit] in *.
  - unfold work in E. rewrite Ha in E. injection E as <- _. auto.
  - injection E as <- _. auto.
  - destruct HL as [L1 L2]. destruct (exec p v) as [v2 o2] eqn:E2. assert (K := IHp _ _ _ L1 Ha E2). destruct o2; [exact (IHq _ _ _ L2 K E)|injection E as <- _; auto|injection E as <- _; auto].
  - destruct HL as [L1 L2]. destruct (exec p v) as [v2 o2] eqn:E2. assert (K := IHp _ _ _ L1 Ha E2). destruct o2; [injection E as <- _; auto|exact (IHq _ _ _ L2 K E)|injection E as <- _; auto].
  - destruct HL as [-> HL]. cbn [mk_limit option_map enter] in E. destruct (exec p v) as [v2 o2] eqn:E2. assert (K := IHp _ _ _ HL Ha E2). destruct o2; cbn [exit] in E; injection E as <- _; auto.
Qed.
Lemma hand_irrelevant p : forall v h, no_limit p -> alarm v = None -> exec p (set_hand h v) = (set_hand h (fst (exec p v)), snd (exec p v)).
Proof.
  induction p as [d|e|p IHp q IHq|p IHp q IHq|tl p IHp]; intros v h HL Ha; cbn [exec no_limit] in *.
  - unfold work. cbn. rewrite Ha. reflexivity.
  - reflexivity.
  - destruct HL as [HL1 HL2]. rewrite (IHp v h HL1 Ha). destruct (exec p v) as [v1 o1] eqn:E1. cbn [fst snd]. assert (K := quiet_run _ _ _ _ HL1 Ha E1). destruct o1; auto.
  - destruct HL as [HL1 HL2]. rewrite (IHp v h HL1 Ha). destruct (exec p v) as [v1 o1] eqn:E1. cbn [fst snd]. assert (K := quiet_run _ _ _ _ HL1 Ha E1). destruct o1; auto.
  - destruct HL as [-> HL]. cbn [mk_limit option_map enter]. rewrite (IHp v h HL Ha). destruct (exec p v) as [v1 o1]. cbn [fst snd]. destruct o1; reflexivity.
Qed.
(* a body without limits and without try, run with an alarm: as without alarm up to the deadline, TimeoutError at the deadline *)
Lemma body_run p : forall w t, sane p -> no_limit p -> no_try p -> alarm w = Some t -> now w < t -> hand w = HTimed ->
  let '(w0, o0) := exec p (set_alarm None w) in let '(w1, o1) := exec p w in
  (now w0 < t -> now w1 = now w0 /\ o1 = o0 /\ alarm w1 = Some t /\ hand w1 = HTimed /\ elapsed w1 = elapsed w0) /\
  (t <= now w0 -> now w1 = t /\ o1 = Raised TimeoutError /\ alarm w1 = None /\ hand w1 = HTimed).
Proof.
  induction p as [d|e|p IHp q IHq|p IHp q IHq|tl p IHp]; intros w t HS HL HT Ha Ht Hh; cbn [exec sane no_limit no_try] in *.
  - unfold work. cbn [set_alarm alarm now hand]. rewrite Ha, Hh. destruct (Rle_dec t (now w + d)) as [K|K]; cbn; split; intros; try lra; auto.
  - cbn. split; intros; [auto|lra].
  - destruct HS as [HS1 HS2], HL as [HL1 HL2], HT as [HT1 HT2]. specialize (IHp w t HS1 HL1 HT1 Ha Ht Hh).
    destruct (exec p (set_alarm None w)) as [w0 o0] eqn:E0. destruct (exec p w) as [w1 o1] eqn:E1. destruct IHp as [A B].
    destruct (exec_facts p (set_alarm None w) w0 o0 HS1 ltac:(discriminate) E0) as (F1 & F2 & _). cbn in F1, F2. assert (F2' : alarm w0 = None) by tauto.
    destruct (Rlt_dec (now w0) t) as [K|K].
    + destruct (A K) as (N1 & -> & A1 & H1 & L1). destruct o0; try (split; intros; [auto|lra]).
      (* the first part is done *)
      assert (IH := IHq w1 t HS2 HL2 HT2 A1 ltac:(lra) H1). assert (Hw0 : exists h, w0 = set_hand h (set_alarm None w1)).
      { exists (hand w0). destruct w0, w1; cbn in *; subst; reflexivity. }
      destruct Hw0 as (h & Ew). rewrite Ew, (hand_irrelevant q (set_alarm None w1) h HL2 eq_refl). destruct (exec q (set_alarm None w1)) as [w2 o2] eqn:E2. cbn [fst snd]. cbn [set_hand now elapsed]. exact IH.
    + destruct (B ltac:(lra)) as (N1 & -> & A1 & H1). destruct o0.
      * destruct (exec q w0) as [w2 o2] eqn:E2. destruct (exec_facts q w0 w2 o2 HS2 ltac:(rewrite F2'; discriminate) E2) as (G1 & _). split; intros; [lra|auto].
      * split; intros; [lra|auto].
      * split; intros; [lra|auto].
  - contradiction.
  - destruct HL as [-> HL]. change (mk_limit None) with (@None R). cbn [enter]. specialize (IHp w t HS HL HT Ha Ht Hh). destruct (exec p (set_alarm None w)) as [w0 o0]. destruct (exec p w) as [w1 o1]. destruct IHp as [A B].
    unfold exit. cbn [set_alarm now]. destruct (Rlt_dec (now w0) t) as [K|K].
    + destruct (A K) as (N1 & -> & A1 & H1 & L1). destruct o0; cbn; rewrite ?N1, ?L1; (split; intros; [auto|lra]).
    + destruct (B ltac:(lra)) as (N1 & -> & A1 & H1). destruct o0; cbn; (split; intros; [lra|auto]).
Qed.

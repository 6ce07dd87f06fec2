(* PreHeapProofs.v -- inplace=False changes no existing cell, inplace=True changes only the argument (C08). *)
From Coq Require Import ZArith.
From Verif Require Export SpecHeap PreFit.
#[local] Open Scope nat_scope.

(* ---- memory ------------------------------------------------------------------------------------------------------ *)
Lemma hput_out l : forall v f a, ~ In a l -> hput f l v a = f a.
Proof. induction l as [|b l IH]; intros [|x v] f a Ha; auto. cbn. rewrite IH by (intros Hx; apply Ha; right; auto).
  destruct (Nat.eqb_spec a b) as [->|]; auto. exfalso. apply Ha. left; auto. Qed.
Lemma hput_in l : forall v f, NoDup l -> length l = length v -> map (hput f l v) l = v.
Proof. induction l as [|b l IH]; intros [|x v] f HN HL; try discriminate; auto. inversion HN as [|? ? Hb HN']; subst. cbn [map hput]. f_equal.
  - rewrite hput_out by auto. rewrite Nat.eqb_refl. reflexivity.
  - rewrite IH; auto. Qed.
Lemma app_inj_pre {A} (u u' v v' : list A) : length u = length u' -> u ++ v = u' ++ v' -> u = u' /\ v = v'.
Proof. revert u'; induction u as [|a u IH]; intros [|a' u'] HL HC; try discriminate; auto. cbn in *. injection HC as -> HC. injection HL as HL.
  destruct (IH u' HL HC) as [-> ->]. auto. Qed.
Lemma concat_inj {A} (m w : list (list A)) : map (@length A) m = map (@length A) w -> concat m = concat w -> m = w.
Proof. revert w; induction m as [|r m IH]; intros [|s w] HL HC; try discriminate; auto. cbn in *. injection HL as H1 H2.
  apply app_inj_pre in HC; auto. destruct HC as [-> HC]. f_equal. auto. Qed.
Lemma rd_write h x w : NoDup (addrs x) -> same_shape (rd h x) w -> rd (hwrite h x w) x = w.
Proof. intros HN HS. destruct x as [l|m], w as [v|w]; cbn in HS; try (destruct HS; fail); cbn.
  - f_equal. apply hput_in; auto. rewrite map_length in HS. auto.
  - f_equal. apply concat_inj.
    + rewrite <- HS. rewrite !map_map. apply map_ext. intros r. rewrite !map_length. reflexivity.
    + rewrite <- concat_map. apply hput_in; auto. rewrite !concat_length'. f_equal. rewrite <- HS, map_map. apply map_ext. intros r. rewrite map_length. reflexivity. Qed.
Lemma rd_ext h h' x : (forall a, In a (addrs x) -> hcell h' a = hcell h a) -> rd h' x = rd h x.
Proof. intros E. destruct x as [l|m]; cbn in *; f_equal; [apply map_ext_in; auto|]. apply map_ext_in. intros r Hr. apply map_ext_in. intros a Ha.
  apply E. apply in_concat. eauto. Qed.
Lemma fresh_rows_concat m : forall i, concat (fresh_rows i m) = seq i (length (concat m)).
Proof. induction m as [|r m IH]; intros i; auto. cbn. rewrite IH, app_length, <- seq_app. reflexivity. Qed.
Lemma fresh_addrs i a : addrs (fresh i a) = seq i (length (aflat a)).
Proof. destruct a; cbn; auto. apply fresh_rows_concat. Qed.
Lemma fresh_shape h i a : same_shape (rd h (fresh i a)) a.
Proof. destruct a as [v|m]; cbn; [rewrite map_length, seq_length; auto|]. revert i. induction m as [|r m IH]; intros i; auto. cbn. f_equal; auto.
  rewrite map_length, seq_length. auto. Qed.
Lemma alloc_ok h a h' x : alloc h a = (h', x) -> hnext h <= hnext h' /\ (forall b, b < hnext h -> hcell h' b = hcell h b) /\ rd h' x = a /\ wf h' x /\
  Forall (fun b => hnext h <= b) (addrs x).
Proof. unfold alloc. intros E. injection E as <- <-. cbn [hnext hwrite]. assert (HA := fresh_addrs (hnext h) a). split; [lia|]. split.
  { intros b Hb. cbn. apply hput_out. rewrite HA. intros Hin. apply in_seq in Hin. lia. } split.
  { apply rd_write; [rewrite HA; apply seq_NoDup|]. apply fresh_shape. }
  split; [split|].
  - rewrite HA. apply seq_NoDup.
  - rewrite HA. apply Forall_forall. intros b Hb. apply in_seq in Hb. cbn. lia.
  - rewrite HA. apply Forall_forall. intros b Hb. apply in_seq in Hb. lia. Qed.

(* ---- refinement of a pure function by a command -------------------------------------------------------------------- *)
Definition refines {B} (op : bool -> harr -> H (B * harr)) (f : arr -> res (B * arr)) : Prop :=
  forall inplace h x h' r, wf h x -> op inplace x h = (h', r) ->
  hnext h <= hnext h' /\
  (forall a, a < hnext h -> (inplace = true -> ~ In a (addrs x)) -> hcell h' a = hcell h a) /\
  match r, f (rd h x) with
  | Ok (b, y), Ok (b', v) => b = b' /\ rd h' y = v /\ wf h' y /\ (if inplace then y = x else Forall (fun a => hnext h <= a) (addrs y))
  | Err e, Err e' => e = e'
  | _, _ => False
  end.
Lemma wf_mono h h' x : wf h x -> hnext h <= hnext h' -> wf h' x.
Proof. intros [H1 H2] Hn. split; auto. eapply Forall_impl; [|exact H2]. cbn. intros; lia. Qed.
Lemma exec1_shape s a b : exec1 s a = Ok b -> same_shape a b.
Proof. destruct s as [o c]. intros E. apply exec1_inv in E. destruct E as [c' [Hc [_ [-> _]]]]. apply cop_shape; auto. Qed.
Lemma hexec_ok p : forall h x h' r, wf h x -> hexec p x h = (h', r) -> hnext h' = hnext h /\ (forall a, ~ In a (addrs x) -> hcell h' a = hcell h a) /\
  match r, exec p (rd h x) with Ok _, Ok v => rd h' x = v | Err e, Err e' => e = e' | _, _ => False end.
Proof. induction p as [|s p IH]; intros h x h' r Hw E.
  - cbn in E. injection E as <- <-. cbn. auto 10.
  - cbn [hexec] in E. unfold hbind, hstmt in E. change (exec (s :: p) (rd h x)) with (do b <- exec1 s (rd h x); exec p b).
    destruct (exec1 s (rd h x)) as [w|e] eqn:E1; [|injection E as <- <-; cbn; auto]. cbn [bind].
    assert (HW : wf (hwrite h x w) x) by (apply (wf_mono h); auto). destruct (IH _ _ _ _ HW E) as [H1 [H2 H3]].
    split; [exact H1|]. split.
    + intros a Ha. rewrite H2 by auto. cbn. apply hput_out; auto.
    + rewrite rd_write in H3; auto; [apply Hw|]. eapply exec1_shape; eauto. Qed.
Definition leaf_pure {B} (prog : arr -> res (B * list stmt)) (a : arr) : res (B * arr) := do bp <- prog a; do v <- exec (snd bp) a; Ok (fst bp, v).
Lemma hleaf_refines {B} (prog : arr -> res (B * list stmt)) : refines (hleaf prog) (leaf_pure prog).
Proof. intros inplace h x h' r Hw E. unfold hleaf, hread, hbind, hlift in E. unfold leaf_pure. destruct (prog (rd h x)) as [[b p]|e]; cbn [bind fst snd] in *.
  2:{ injection E as <- <-. repeat split; auto. }
  destruct inplace.
  - cbn [hret] in E. destruct (hexec p x h) as [h1 r1] eqn:E1. destruct (hexec_ok _ _ _ _ _ Hw E1) as [H1 [H2 H3]]. destruct r1 as [[]|e]; cbn in E.
    + injection E as <- <-. destruct (exec p (rd h x)) as [v|]; [|destruct H3]. cbn. split; [lia|]. split; [intros; apply H2; auto|]. split; auto. split; auto. split; auto. apply (wf_mono h); auto. lia.
    + injection E as <- <-. destruct (exec p (rd h x)) as [v|]; [destruct H3|]. cbn. split; [lia|]. split; auto.
  - unfold hnew in E. destruct (alloc h (rd h x)) as [h0 y] eqn:E0. destruct (alloc_ok _ _ _ _ E0) as [A1 [A2 [A3 [A4 A5]]]].
    destruct (hexec p y h0) as [h1 r1] eqn:E1. destruct (hexec_ok _ _ _ _ _ A4 E1) as [H1 [H2 H3]]. rewrite A3 in H3.
    assert (HO : forall a, a < hnext h -> hcell h1 a = hcell h a).
    { intros a Ha. rewrite H2; [apply A2; auto|]. intros Hin. rewrite Forall_forall in A5. apply A5 in Hin. lia. }
    destruct r1 as [[]|e]; cbn in E; injection E as <- <-.
    + destruct (exec p (rd h x)) as [v|]; [|destruct H3]. cbn. split; [lia|]. split; [auto|]. split; auto. split; auto. split; auto. apply (wf_mono h0); auto. lia.
    + destruct (exec p (rd h x)) as [v|]; [destruct H3|]. cbn. split; [lia|]. split; auto. Qed.

(* one command after another, the second in place *)
Lemma refines_seq {B C} (op1 : bool -> harr -> H (B * harr)) f1 (op2 : bool -> harr -> H (C * harr)) f2 :
  refines op1 f1 -> refines op2 f2 -> refines (fun fl x => hbind (op1 fl x) (fun r => op2 true (snd r))) (fun a => do r <- f1 a; f2 (snd r)).
Proof. intros R1 R2 fl h x h' r Hw E. unfold hbind in E. destruct (op1 fl x h) as [h1 r1] eqn:E1. destruct (R1 _ _ _ _ _ Hw E1) as [N1 [C1 P1]].
  destruct r1 as [[b y]|e].
  2:{ injection E as <- <-. destruct (f1 (rd h x)) as [[? ?]|]; [destruct P1|]. cbn. auto 10. }
  destruct (f1 (rd h x)) as [[b' v]|]; [|destruct P1]. destruct P1 as [-> [P1 [P2 P3]]]. cbn [bind fst snd] in *.
  destruct (R2 _ _ _ _ _ P2 E) as [N2 [C2 Q]]. rewrite P1 in Q.
  assert (HC : forall a, a < hnext h -> (fl = true -> ~ In a (addrs x)) -> hcell h' a = hcell h a).
  { intros a Ha Hf. rewrite C2; [apply C1; auto|lia|]. intros _. destruct fl; [subst y; auto|]. intros Hin. rewrite Forall_forall in P3. apply P3 in Hin. lia. }
  destruct r as [[c z]|e]; (destruct (f2 v) as [[c' w]|]; try (destruct Q; fail)); (split; [lia|]; split; auto).
  destruct Q as [-> [Q1 [Q2 ->]]]. auto. Qed.
Lemma refines_ext {B} (op op' : bool -> harr -> H (B * harr)) f f' : refines op f -> (forall fl x h, op' fl x h = op fl x h) -> (forall a, f' a = f a) -> refines op' f'.
Proof. intros R E1 E2 fl h x h' r Hw E. rewrite E1 in E. rewrite E2. eapply R; eauto. Qed.
Lemma refines_map {B C} (op : bool -> harr -> H (B * harr)) f (j : B -> C) : refines op f ->
  refines (fun fl x => hbind (op fl x) (fun r => hret (j (fst r), snd r))) (fun a => do r <- f a; Ok (j (fst r), snd r)).
Proof. intros R fl h x h' r Hw E. unfold hbind in E. destruct (op fl x h) as [h1 r1] eqn:E1. destruct (R _ _ _ _ _ Hw E1) as [N1 [C1 P1]].
  destruct r1 as [[b y]|e]; injection E as <- <-; destruct (f (rd h x)) as [[b' v]|]; try (destruct P1; fail); cbn; auto.
  destruct P1 as [-> P1]. auto. Qed.
Lemma hchain_cons {T B} (op : T -> bool -> harr -> H (B * harr)) t l fl x :
  hchain op (t :: l) fl x = hbind (op t fl x) (fun by_ => hbind (hchain op l true (snd by_)) (fun r => hret (fst by_ :: fst r, snd r))).
Proof. reflexivity. Qed.
(* members one after the other *)
Fixpoint pchain {T B} (f : T -> arr -> res (B * arr)) (l : list T) (a : arr) : res (list B * arr) :=
  match l with [] => Ok ([], a) | t :: l' => do r <- f t a; do s <- pchain f l' (snd r); Ok (fst r :: fst s, snd s) end.
Definition ppipe {T B} (f : T -> arr -> res (B * arr)) (l : list T) (a : arr) : res (list B * arr) := match l with [] => Err IndexError | _ => pchain f l a end.
Lemma hchain_true {T B} (op : T -> bool -> harr -> H (B * harr)) f l : Forall (fun t => refines (op t) (f t)) l ->
  forall h x h' r, wf h x -> hchain op l true x h = (h', r) -> hnext h <= hnext h' /\ (forall a, a < hnext h -> ~ In a (addrs x) -> hcell h' a = hcell h a) /\
  match r, pchain f l (rd h x) with Ok (b, y), Ok (b', v) => b = b' /\ rd h' y = v /\ wf h' y /\ y = x | Err e, Err e' => e = e' | _, _ => False end.
Proof. induction l as [|t l IH]; intros HF h x h' r Hw E.
  - cbn in E. injection E as <- <-. cbn. auto 10.
  - apply Forall_cons_iff in HF. destruct HF as [Ht HF]. rewrite hchain_cons in E. unfold hbind in E. destruct (op t true x h) as [h1 r1] eqn:E1.
    destruct (Ht _ _ _ _ _ Hw E1) as [N1 [C1 P1]]. cbn [pchain]. destruct r1 as [[b y]|e].
    2:{ injection E as <- <-. destruct (f t (rd h x)) as [[? ?]|]; [destruct P1|]. cbn. auto 10. }
    destruct (f t (rd h x)) as [[b' v]|]; [|destruct P1]. destruct P1 as [-> [P1 [P2 ->]]]. cbn [bind fst snd] in *.
    destruct (hchain op l true x h1) as [h2 r2] eqn:E2. destruct (IH HF _ _ _ _ P2 E2) as [N2 [C2 Q]]. rewrite P1 in Q.
    assert (HC : forall a, a < hnext h -> ~ In a (addrs x) -> hcell h2 a = hcell h a) by (intros a Ha Hf; rewrite C2; [apply C1; auto|lia|auto]).
    destruct r2 as [[c z]|e]; injection E as <- <-; destruct (pchain f l v) as [[c' w]|]; try (destruct Q; fail); cbn; (split; [lia|]; split; auto).
    destruct Q as [-> Q]. auto. Qed.
Lemma hpipe_refines {T B} (op : T -> bool -> harr -> H (B * harr)) f l : Forall (fun t => refines (op t) (f t)) l -> refines (hpipe op l) (ppipe f l).
Proof. destruct l as [|t l].
  - intros _ fl h x h' r Hw E. cbn in E. injection E as <- <-. cbn. auto 10.
  - intros HF. apply Forall_cons_iff in HF. destruct HF as [Ht HF].
    intros fl h x h' r Hw E. unfold hpipe in E. rewrite hchain_cons in E. unfold hbind in E. destruct (op t fl x h) as [h1 r1] eqn:E1.
    destruct (Ht _ _ _ _ _ Hw E1) as [N1 [C1 P1]]. cbn [ppipe pchain]. destruct r1 as [[b y]|e].
    2:{ injection E as <- <-. destruct (f t (rd h x)) as [[? ?]|]; [destruct P1|]. cbn. auto 10. }
    destruct (f t (rd h x)) as [[b' v]|]; [|destruct P1]. destruct P1 as [-> [P1 [P2 P3]]]. cbn [bind fst snd] in *.
    destruct (hchain op l true y h1) as [h2 r2] eqn:E2. destruct (hchain_true op f l HF _ _ _ _ P2 E2) as [N2 [C2 Q]]. rewrite P1 in Q.
    assert (HC : forall a, a < hnext h -> (fl = true -> ~ In a (addrs x)) -> hcell h2 a = hcell h a).
    { intros a Ha Hf. rewrite C2; [apply C1; auto|lia|]. destruct fl; [subst y; auto|]. intros Hin. rewrite Forall_forall in P3. apply P3 in Hin. lia. }
    destruct r2 as [[c z]|e]; injection E as <- <-; destruct (pchain f l v) as [[c' w]|]; try (destruct Q; fail); cbn; (split; [lia|]; split; auto).
    destruct Q as [-> [Q1 [Q2 ->]]]. auto. Qed.
Lemma hpipe_rev_refines {T} (op : T -> bool -> harr -> H (unit * harr)) f l : Forall (fun t => refines (op t) (f t)) l ->
  refines (hpipe_rev op l) (fun a => pipe_rev (fun t (r : unit * arr) => f t (snd r)) l (tt, a)).
Proof. destruct l as [|t0 l0].
  - intros _ fl h x h' r Hw E. cbn in E. injection E as <- <-. cbn. auto 10.
  - intros HF. assert (Hl : t0 :: l0 <> []) by discriminate. unfold hpipe_rev, pipe_rev. remember (t0 :: l0) as l. clear Heql t0 l0.
    induction l as [|t l IH]; [congruence|]. apply Forall_cons_iff in HF. destruct HF as [Ht HF]. destruct l as [|u l].
    + eapply refines_ext; [exact Ht| |]; [reflexivity|]. intros a. reflexivity.
    + eapply refines_ext; [apply (refines_seq _ _ _ _ (IH HF ltac:(discriminate)) Ht)| |]; reflexivity. Qed.

(* ---- members on disjoint views ---------------------------------------------------------------------------------------- *)
Lemma hzip_cons {T B} (op : T -> bool -> harr -> H (B * harr)) fl t l q qs :
  hzip op fl (t :: l) (q :: qs) = hbind (op t fl q) (fun y => hbind (hzip op fl l qs) (fun ys => hret (y :: ys))).
Proof. reflexivity. Qed.
Lemma hzip_ok {T B} (op : T -> bool -> harr -> H (B * harr)) f fl l : Forall (fun t => refines (op t) (f t)) l ->
  forall qs h h' r, length l = length qs -> NoDup (concat (map addrs qs)) -> Forall (wf h) qs -> hzip op fl l qs h = (h', r) ->
  hnext h <= hnext h' /\
  (forall a, a < hnext h -> (fl = true -> ~ In a (concat (map addrs qs))) -> hcell h' a = hcell h a) /\
  match r, zipM f l (map (rd h) qs) with
  | Ok ys, Ok vs => map fst ys = map fst vs /\ map (rd h') (map snd ys) = map snd vs /\ Forall (wf h') (map snd ys) /\ (fl = true -> map snd ys = qs)
  | Err e, Err e' => e = e'
  | _, _ => False
  end.
Proof. induction l as [|t l IH]; intros HF qs h h' r HL HN HW E.
  - destruct qs; [|discriminate]. cbn in E. injection E as <- <-. cbn. auto 10.
  - destruct qs as [|q qs]; [discriminate|]. apply Forall_cons_iff in HF, HW. destruct HF as [Ht HF], HW as [Hq HW]. cbn [map concat] in *.
    rewrite hzip_cons in E. unfold hbind in E. destruct (op t fl q h) as [h1 r1] eqn:E1. destruct (Ht _ _ _ _ _ Hq E1) as [N1 [C1 P1]].
    cbn [zipM]. change (zipM f (t :: l) (rd h q :: map (rd h) qs)) with (do y <- f t (rd h q); do ys <- zipM f l (map (rd h) qs); Ok (y :: ys)).
    destruct r1 as [[b y]|e].
    2:{ injection E as <- <-. destruct (f t (rd h q)) as [[? ?]|]; [destruct P1|]. cbn. split; auto. split; auto. intros a Ha Hf. apply C1; auto.
        intros Hfl Hin. apply (Hf Hfl). apply in_or_app. auto. }
    destruct (f t (rd h q)) as [[b' v]|]; [|destruct P1]. destruct P1 as [-> [P1 [P2 P3]]]. cbn [bind].
    assert (HD : forall a, In a (addrs q) -> ~ In a (concat (map addrs qs))).
    { intros a Ha Hb. clear - HN Ha Hb. induction (addrs q) as [|c u IHu]; [destruct Ha|]. cbn in HN. inversion HN as [|? ? Hc HN']; subst.
      destruct Ha as [ -> |Ha]; [apply Hc; apply in_or_app; auto|auto]. }
    assert (HN' : NoDup (concat (map addrs qs))) by (clear - HN; induction (addrs q); auto; inversion HN; auto).
    assert (HW' : Forall (wf h1) qs) by (eapply Forall_impl; [|exact HW]; intros z Hz; apply (wf_mono h); auto).
    assert (HR : map (rd h1) qs = map (rd h) qs).
    { apply map_ext_in. intros z Hz. apply rd_ext. intros a Ha. assert (Hin : In a (concat (map addrs qs))) by (apply in_concat; exists (addrs z); split; auto; apply in_map; auto).
      apply C1. - rewrite Forall_forall in HW. destruct (HW z Hz) as [_ Hlt]. rewrite Forall_forall in Hlt. auto. - intros _ Hq'. apply (HD a Hq'); auto. }
    destruct (hzip op fl l qs h1) as [h2 r2] eqn:E2. destruct (IH HF qs h1 h2 r2 ltac:(cbn in HL; lia) HN' HW' E2) as [N2 [C2 Q]]. rewrite HR in Q.
    assert (HC : forall a, a < hnext h -> (fl = true -> ~ In a (addrs q ++ concat (map addrs qs))) -> hcell h2 a = hcell h a).
    { intros a Ha Hf. rewrite C2; [apply C1; auto|lia|]; intros Hfl Hin; apply (Hf Hfl); apply in_or_app; auto. }
    destruct r2 as [ys|e]; injection E as <- <-; destruct (zipM f l (map (rd h) qs)) as [vs|]; try (destruct Q; fail); cbn; (split; [lia|]; split; auto).
    destruct Q as [Q1 [Q2 [Q3 Q4]]]. split; [f_equal; auto|]. assert (HY : rd h2 y = v).
    { rewrite <- P1. apply rd_ext. intros a Ha. destruct P2 as [_ P2]. rewrite Forall_forall in P2. apply C2; auto. intros ->. subst y. apply HD; auto. }
    split; [f_equal; auto|]. split; [constructor; auto; apply (wf_mono h1); auto|]. intros ->. subst y. rewrite Q4; auto. Qed.
Lemma slice_map {A B} (f : A -> B) i j l : slice i j (map f l) = map f (slice i j l).
Proof. unfold slice. rewrite skipn_map, firstn_map. reflexivity. Qed.
Lemma rd_hslice h i j x : rd h (hslice i j x) = aslice i j (rd h x).
Proof. destruct x; cbn; rewrite slice_map; reflexivity. Qed.
Lemma rd_hsplit h ns x : map (rd h) (hsplit ns x) = split_rows ns (rd h x).
Proof. unfold hsplit, split_rows. rewrite map_map. apply map_ext. intros i. apply rd_hslice. Qed.
Lemma hsplit_HV ns l : hsplit ns (HV l) = map HV (lsplit ns l).
Proof. unfold hsplit, lsplit. rewrite map_map. apply map_ext_in. intros i Hi. apply in_seq in Hi. rewrite !dimsum_nth by lia. reflexivity. Qed.
Lemma hsplit_HM ns l : hsplit ns (HM l) = map HM (lsplit ns l).
Proof. unfold hsplit, lsplit. rewrite map_map. apply map_ext_in. intros i Hi. apply in_seq in Hi. rewrite !dimsum_nth by lia. reflexivity. Qed.
Lemma hsplit_addrs h ns x : alen (rd h x) = lsumn ns -> concat (map addrs (hsplit ns x)) = addrs x.
Proof. destruct x as [l|m]; cbn [rd alen]; rewrite map_length; intros HL.
  - rewrite hsplit_HV, map_map. cbn [addrs]. rewrite map_id. apply (concat_lsplit ns l HL).
  - rewrite hsplit_HM, map_map. cbn [addrs]. destruct (concat_lsplit ns m HL) as [E _]. rewrite <- E at 2. clear. induction (lsplit ns m) as [|u ls IH]; auto.
    cbn. rewrite concat_app, IH. reflexivity. Qed.
Lemma NoDup_concat_in {A} (ls : list (list A)) l : NoDup (concat ls) -> In l ls -> NoDup l.
Proof. induction ls as [|u ls IH]; intros HN Hin; [destruct Hin|]. cbn in HN. destruct Hin as [ -> |Hin].
  - clear - HN. induction l as [|a l IHl]; constructor; inversion HN; subst; auto. intros Ha. apply H1. apply in_or_app; auto.
  - apply IH; auto. clear - HN. induction u; auto. inversion HN; auto. Qed.
Lemma hsplit_wf h ns x : wf h x -> alen (rd h x) = lsumn ns -> Forall (wf h) (hsplit ns x) /\ NoDup (concat (map addrs (hsplit ns x))).
Proof. intros [H1 H2] HL. assert (HA := hsplit_addrs h ns x HL). split; [|rewrite HA; auto]. apply Forall_forall. intros q Hq.
  assert (Hin : In (addrs q) (map addrs (hsplit ns x))) by (apply in_map; auto). split.
  - eapply NoDup_concat_in; [|exact Hin]. rewrite HA. auto.
  - rewrite Forall_forall in *. intros a Ha. apply H2. rewrite <- HA. apply in_concat. eauto. Qed.
Definition splits (blocks : arr -> res (list arr)) (k : nat) : Prop := forall a qs, blocks a = Ok qs -> exists ns, qs = split_rows ns a /\ alen a = lsumn ns /\ length ns = k.
Definition pmulti {T B} (blocks : arr -> res (list arr)) (f : T -> arr -> res (B * arr)) (l : list T) (a : arr) : res (list B * arr) :=
  do qs <- blocks a; do ys <- zipM f l qs; do b <- aconcat (map snd ys); Ok (map fst ys, b).
Lemma hmulti_refines {T B} blocks (op : T -> bool -> harr -> H (B * harr)) f l : splits blocks (length l) -> Forall (fun t => refines (op t) (f t)) l ->
  refines (hmulti blocks op l) (pmulti blocks f l).
Proof. intros HS HF fl h x h' r Hw E. unfold hmulti, hread, hbind, hlift in E. unfold pmulti. destruct (blocks (rd h x)) as [qs|e] eqn:EB.
  2:{ injection E as <- <-. cbn. auto 10. }
  destruct (HS _ _ EB) as [ns [-> [HL Hk]]]. rewrite split_alens in E by auto. cbn [bind]. destruct (hsplit_wf h ns x Hw HL) as [W1 W2].
  destruct (hzip op fl l (hsplit ns x) h) as [h1 r1] eqn:E1.
  destruct (hzip_ok op f fl l HF (hsplit ns x) h h1 r1 ltac:(unfold hsplit; rewrite map_length, seq_length; auto) W2 W1 E1) as [N1 [C1 P1]].
  rewrite (hsplit_addrs h) in C1 by auto. rewrite rd_hsplit in P1. destruct r1 as [ys|e].
  2:{ injection E as <- <-. destruct (zipM f l (split_rows ns (rd h x))); [destruct P1|]. cbn. auto 10. }
  destruct (zipM f l (split_rows ns (rd h x))) as [vs|] eqn:EZ; [|destruct P1]. destruct P1 as [P1 [P2 [P3 P4]]]. cbn [bind]. unfold hreads in E. rewrite P2 in E.
  destruct (aconcat (map snd vs)) as [b|e] eqn:EC.
  2:{ injection E as <- <-. cbn. auto 10. }
  unfold hnew in E. destruct (alloc h1 b) as [h2 y] eqn:E2. injection E as <- <-. destruct (alloc_ok _ _ _ _ E2) as [A1 [A2 [A3 [A4 A5]]]]. cbn [bind fst snd].
  split; [lia|]. split; [intros a Ha Hf; rewrite A2 by lia; apply C1; auto|]. split; auto. destruct fl.
  - assert (EX : b = rd h1 x).
    { specialize (P4 eq_refl). rewrite P4 in P2. rewrite rd_hsplit in P2. rewrite <- P2 in EC. rewrite concat_split in EC; [congruence| |].
      - intros ->. cbn in EC. discriminate. - destruct x; cbn [rd alen] in *; rewrite map_length in *; auto. }
    split; [|split; auto; apply (wf_mono h); auto; lia]. rewrite EX. apply rd_ext. intros a Ha. apply A2. destruct Hw as [_ Hw]. rewrite Forall_forall in Hw.
    apply Hw in Ha. lia.
  - split; auto. split; auto. eapply Forall_impl; [|exact A5]. cbn. intros; lia. Qed.

(* ---- the methods -------------------------------------------------------------------------------------------------------- *)
Definition pure (f : arr -> res arr) (a : arr) : res (unit * arr) := do b <- f a; Ok (tt, b).
Lemma pchain_pure {T} (f : T -> arr -> res arr) l : forall a, (do r <- pchain (fun t => pure (f t)) l a; Ok (tt, snd r)) = pure (chain f l) a.
Proof. induction l as [|t l IH]; intros a; [reflexivity|]. unfold pure in *. cbn [pchain]. rewrite chain_cons. destruct (f t a) as [b|e]; [|reflexivity]. cbn [bind snd fst].
  rewrite <- IH. destruct (pchain _ l b) as [[bs c]|e]; reflexivity. Qed.
Lemma chain_rev_pure {T} (f : T -> arr -> res arr) l : forall a, chain_rev (fun t (r : unit * arr) => pure (f t) (snd r)) l (tt, a) = pure (chain_rev f l) a.
Proof. induction l as [|t l IH]; intros a; [reflexivity|]. unfold pure in *. rewrite !chain_rev_cons, IH. destruct (chain_rev f l a) as [b|e]; [|reflexivity]. cbn [bind snd]. reflexivity. Qed.
Lemma zipM_pure {T} (f : T -> arr -> res arr) l : forall qs, zipM (fun t => pure (f t)) l qs = (do ys <- zipM f l qs; Ok (map (fun y => (tt, y)) ys)).
Proof. induction l as [|t l IH]; intros [|q qs]; try reflexivity.
  change (zipM f (t :: l) (q :: qs)) with (do y <- f t q; do ys <- zipM f l qs; Ok (y :: ys)).
  change (zipM (fun t => pure (f t)) (t :: l) (q :: qs)) with (do y <- pure (f t) q; do ys <- zipM (fun t => pure (f t)) l qs; Ok (y :: ys)).
  rewrite IH. unfold pure. destruct (f t q); [|reflexivity]. cbn [bind]. destruct (zipM f l qs); reflexivity. Qed.
Lemma pmulti_pure {T} blocks (f : T -> arr -> res arr) l a : (do r <- pmulti blocks (fun t => pure (f t)) l a; Ok (tt, snd r)) = pure (fun a => do qs <- blocks a; do ys <- zipM f l qs; aconcat ys) a.
Proof. unfold pmulti, pure at 2. destruct (blocks a) as [qs|]; [|reflexivity]. cbn [bind]. rewrite zipM_pure. destruct (zipM f l qs) as [ys|]; [|reflexivity]. cbn [bind].
  rewrite map_map. cbn [snd]. rewrite map_id. destruct (aconcat ys); reflexivity. Qed.
Lemma multi_split_splits l : splits (multi_split (variable_sizes l)) (length l).
Proof. intros a qs. unfold multi_split, multi_check. destruct (allsome (variable_sizes l)) as [ns|] eqn:E; [|discriminate]. destruct (Nat.eqb_spec (alen a) (lsumn ns)); [|discriminate].
  cbn. intros Hq. injection Hq as <-. exists ns. split; auto. split; auto. apply allsome_length in E. rewrite <- E. unfold variable_sizes. apply map_length. Qed.
Lemma lsumn_rep n k : lsumn (repeat n k) = k * n. Proof. induction k; cbn; auto. Qed.
Lemma multi_split_locs_splits l locs : splits (multi_split_locs (variable_sizes l) locs) (length l).
Proof. intros a qs. unfold multi_split_locs. destruct (allsome (variable_sizes l)) as [ns|] eqn:E; [|discriminate]. destruct locs; [|apply multi_split_splits].
  destruct (negb (all_same ns)); [discriminate|]. unfold np_split. assert (HL : length (variable_sizes l) = length l) by apply map_length. rewrite HL.
  destruct (Nat.eqb_spec (alen a mod length l) 0) as [E0|]; [|discriminate]. intros Hq. injection Hq as <-. eexists. split; [reflexivity|]. split; [|apply repeat_length].
  rewrite lsumn_rep. destruct (length l) as [|k] eqn:Ek; [cbn in E0 |- *; exact E0|]. apply Nat.div_exact; auto. Qed.
Lemma hleaf_pure prog : forall a, leaf_pure (with_tt prog) a = pure (fun a => do p <- prog a; exec p a) a.
Proof. intros a. unfold leaf_pure, with_tt, pure. destruct (prog a); reflexivity. Qed.
Lemma refines_none op f : refines op f -> refines (fun fl x => hnone (op fl x)) (fun a => do r <- f a; Ok (tt, snd r)).
Proof. apply (refines_map op f (fun _ : list unit => tt)). Qed.
Lemma C08_transform t : refines (htransform t) (pure (transform t)).
Proof. induction t as [r nm|c d nm|s|d nm|l nm IH|l IH] using tf_ind'.
  1-4: (eapply refines_ext; [apply hleaf_refines|reflexivity|intros a; rewrite hleaf_pure; reflexivity]).
  - eapply refines_ext; [apply refines_none; eapply hpipe_refines; exact IH|reflexivity|]. intros a. cbn [transform]. destruct l as [|t l]; [reflexivity|].
    unfold ppipe, pipe. rewrite pchain_pure. reflexivity.
  - eapply refines_ext; [apply refines_none; eapply hmulti_refines; [apply multi_split_splits|exact IH]|reflexivity|]. intros a. symmetry. exact (pmulti_pure _ transform l a). Qed.
Lemma C08_ddts t : refines (htransform_ddts t) (pure (transform_ddts t)).
Proof. induction t as [r nm|c d nm|s|d nm|l nm IH|l IH] using tf_ind'.
  1-4: (eapply refines_ext; [apply hleaf_refines|reflexivity|intros a; rewrite hleaf_pure; reflexivity]).
  - eapply refines_ext; [apply refines_none; eapply hpipe_refines; exact IH|reflexivity|]. intros a. cbn [transform_ddts]. destruct l as [|t l]; [reflexivity|].
    unfold ppipe, pipe. rewrite pchain_pure. reflexivity.
  - eapply refines_ext; [apply refines_none; eapply hmulti_refines; [apply multi_split_splits|exact IH]|reflexivity|]. intros a. symmetry. exact (pmulti_pure _ transform_ddts l a). Qed.
Lemma C08_inverse locs t : refines (hinverse locs t) (pure (inverse_transform t locs)).
Proof. induction t as [r nm|c d nm|s|d nm|l nm IH|l IH] using tf_ind'.
  1-4: (eapply refines_ext; [apply hleaf_refines|reflexivity|intros a; rewrite hleaf_pure; reflexivity]).
  - eapply refines_ext; [eapply hpipe_rev_refines; exact IH|reflexivity|]. intros a. cbn [inverse_transform]. destruct l as [|t l]; [reflexivity|].
    unfold pipe_rev. symmetry. apply (chain_rev_pure (fun t => inverse_transform t locs)).
  - eapply refines_ext; [apply refines_none; eapply hmulti_refines; [apply multi_split_locs_splits|exact IH]|reflexivity|]. intros a. symmetry. exact (pmulti_pure _ (fun t => inverse_transform t locs) l a). Qed.

Lemma chain_fit_pchain (f : tf -> arr -> res (tf * arr)) l : forall a, chain_fit f l a = pchain f l a.
Proof. induction l as [|t l IH]; intros a; [reflexivity|].
  change (chain_fit f (t :: l) a) with (do tb <- f t a; let '(t', b) := tb in do rest <- chain_fit f l b; let '(ts, c) := rest in Ok (t' :: ts, c)).
  cbn [pchain]. destruct (f t a) as [[t' b]|]; [|reflexivity]. cbn [bind fst snd]. rewrite IH. destruct (pchain f l b) as [[ts c]|]; reflexivity. Qed.
Lemma C08_fit t : forall nx, refines (hfit_from nx t) (fit_from nx t).
Proof. induction t as [r nm|c d nm|s|d nm|l nm IH|l IH] using tf_ind'; intros nx.
  1-4: (eapply refines_ext; [apply hleaf_refines|reflexivity|intros a; cbn [fit_from]; unfold leaf_pure; destruct (fit_prog _ a) as [[t' p]|]; reflexivity]).
  - eapply refines_ext; [apply (refines_map (hpipe (hfit_from None) l) (ppipe (fit_from None) l) (fun l' => TPipe l' nm)); apply hpipe_refines; eapply Forall_impl; [|exact IH]; intros t Ht; exact (Ht None)|reflexivity|].
    intros a. cbn [fit_from]. destruct l as [|t l]; [reflexivity|]. unfold pipe_fit, ppipe. rewrite chain_fit_pchain.
    destruct (pchain (fit_from None) (t :: l) a) as [[l' b]|]; reflexivity.
  - intros fl h x h' r Hw E. cbn [hfit_from] in E. unfold hread in E. cbn [fit_from].
    set (q := match allsome (variable_sizes l) with Some _ => Ok None | None => raise_if negb (alen (rd h x) mod length l =? 0) with DimensionalityError;; Ok (Some (alen (rd h x) / length l)) end) in *.
    unfold hbind at 1 in E. unfold hlift at 1 in E. destruct q as [nx'|e].
    2:{ injection E as <- <-. cbn. auto 10. }
    cbn [bind]. set (l0 := match nx' with None => l | Some nx => map (tf_set_base nx) l end) in *.
    assert (HL : length l0 = length l) by (unfold l0; destruct nx'; auto; apply map_length).
    assert (R : refines (fun fl x => hbind (hmulti (multi_split (variable_sizes l0)) (hfit_from nx') l fl x) (fun r => hret (TMulti (fst r), snd r)))
                        (fun a => do r <- pmulti (multi_split (variable_sizes l0)) (fit_from nx') l a; Ok (TMulti (fst r), snd r))).
    { apply (refines_map (hmulti (multi_split (variable_sizes l0)) (hfit_from nx') l) (pmulti (multi_split (variable_sizes l0)) (fit_from nx') l) (fun l' => TMulti l')); apply hmulti_refines; [rewrite <- HL; apply multi_split_splits|]. eapply Forall_impl; [|exact IH]. intros t Ht. exact (Ht nx'). }
    destruct (R _ _ _ _ _ Hw E) as [R1 [R2 R3]]. split; auto. split; auto. unfold pmulti in R3.
    destruct (multi_split (variable_sizes l0) (rd h x)) as [qs|]; [|exact R3]. cbn [bind] in *. destruct (zipM (fit_from nx') l qs) as [ys|]; [|exact R3].
    cbn [bind] in *. destruct (aconcat (map snd ys)); exact R3. Qed.

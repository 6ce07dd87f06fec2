(* VerifyProofs.v -- proofs about verify() of transformers. *)
From Coq Require Import ZArith Lra Psatz.
From Verif Require Import MatAlg LinAlg PreProofs PreLocs PreFinal PreHeapProofs GalProofs.
From Verif Require Import SpecVerify.
#[local] Open Scope nat_scope.

(* ---- transform acts on each row by an affine map, transform_ddts by its linear part ----------------------------- *)
Definition aff (ab : list (R * R)) (A : mat) : mat := map2 (fun p row => map (fun x => fst p * x + snd p)%R row) ab A.
Definition lin (ab : list (R * R)) (A : mat) : mat := map2 (fun p row => map (fun x => fst p * x)%R row) ab A.
Definition rowaff (n : nat) (t : tf) : Prop := exists ab, length ab = n /\
  forall A, length A = n -> transform t (M A) = Ok (M (aff ab A)) /\ transform_ddts t (M A) = Ok (M (lin ab A)).
Definition comp2 (p q : R * R) : R * R := (fst p * fst q, fst p * snd q + snd p)%R.
Lemma aff_length ab A : length ab = length A -> length (aff ab A) = length A.
Proof. intros E. unfold aff. rewrite map2_length. lia. Qed.
Lemma lin_length ab A : length ab = length A -> length (lin ab A) = length A.
Proof. intros E. unfold lin. rewrite map2_length. lia. Qed.
Lemma aff_comp ab ab' : forall A, length ab = length A -> length ab' = length A -> aff ab' (aff ab A) = aff (map2 comp2 ab' ab) A.
Proof.
  revert ab'. induction ab as [|p ab IH]; intros [|p' ab'] [|r A] E E'; try discriminate; auto. cbn [aff map2] in *. f_equal.
  - rewrite map_map. apply map_ext. intros x. unfold comp2. cbn. ring.
  - apply IH; cbn in *; lia.
Qed.
Lemma lin_comp ab ab' : forall A, length ab = length A -> length ab' = length A -> lin ab' (lin ab A) = lin (map2 comp2 ab' ab) A.
Proof.
  revert ab'. induction ab as [|p ab IH]; intros [|p' ab'] [|r A] E E'; try discriminate; auto. cbn [lin map2] in *. f_equal.
  - rewrite map_map. apply map_ext. intros x. unfold comp2. cbn. ring.
  - apply IH; cbn in *; lia.
Qed.
Lemma aff_id n A : length A = n -> aff (repeat (1, 0)%R n) A = A /\ lin (repeat (1, 0)%R n) A = A.
Proof.
  intros <-. induction A as [|r A [IH1 IH2]]; auto. cbn. unfold aff, lin in IH1, IH2. rewrite IH1, IH2. split; f_equal.
  - rewrite <- (map_id r) at 2. apply map_ext. intros. ring.
  - rewrite <- (map_id r) at 2. apply map_ext. intros. ring.
Qed.
(* one statement *)
Definition coefs (n : nat) (c : coef) : vec := match c with Sc x => repeat x n | Vc v => v end.
Definition pair1 (o : aop) (x : R) : R * R := match o with IAdd => (1, x) | ISub => (1, - x) | IMul => (x, 0) | IDiv => (1, 0) end%R.
Lemma cop_aff n o c : okc n c -> o <> IDiv -> let ab := map (pair1 o) (coefs n c) in length ab = n /\
  forall A, length A = n -> cop o c (M A) = M (aff ab A) /\ (match o with IMul => cop o c (M A) | _ => M A end) = M (lin ab A).
Proof.
  intros Hc Ho ab. assert (HL : length (coefs n c) = n) by (destruct c; cbn in *; [apply repeat_length|auto]).
  split; [unfold ab; rewrite map_length; auto|]. intros A HA.
  assert (E : cop o c (M A) = M (map2 (fun x row => map (fun y => aop_fun o y x) row) (coefs n c) A)).
  { destruct c as [x|v]; cbn [cop allop rowop coefs].
    - f_equal. rewrite <- HA. clear. induction A; auto. cbn. f_equal. auto.
    - f_equal. cbn in HL. rewrite <- HA in HL. clear -HL. revert v HL. induction A as [|r A IH]; intros [|x v] HL; try discriminate; auto. cbn. f_equal. apply IH. cbn in HL. lia. }
  rewrite E. unfold ab. clear E ab Hc. revert HL HA. generalize (coefs n c). intros v HL HA. rewrite <- HL in HA. clear HL n c.
  assert (G : map2 (fun x row => map (fun y => aop_fun o y x) row) v A = aff (map (pair1 o) v) A /\
              (match o with IMul => map2 (fun x row => map (fun y => aop_fun o y x) row) v A | _ => A end) = lin (map (pair1 o) v) A).
  { revert A HA. induction v as [|x v IH]; intros [|r A] HA; try discriminate; [destruct o; auto|].
    destruct (IH A) as [H1 H2]; [cbn in HA; lia|]. cbn [map2 map aff lin] in *. unfold aff, lin in H1, H2. split.
    - rewrite H1. f_equal. apply map_ext. intros y. destruct o; cbn; try ring; congruence.
    - rewrite <- H2. destruct o; cbn [pair1 fst]; f_equal; try (rewrite <- (map_id r) at 1; apply map_ext; intros; cbn; ring); try congruence.
      apply map_ext. intros. cbn. ring. }
  destruct G as [-> G2]. split; auto. destruct o; auto; congruence.
Qed.
Lemma pcop_aff n p : okp n p -> nodiv p -> exists ab, length ab = n /\
  forall A, length A = n -> pcop p (M A) = M (aff ab A) /\ pcop (linp p) (M A) = M (lin ab A).
Proof.
  induction p as [|[o c] p IH]; intros Hp Hd.
  - exists (repeat (1, 0)%R n). split; [apply repeat_length|]. intros A HA. destruct (aff_id n A HA) as [H1 H2]. now rewrite H1, H2.
  - apply Forall_cons_iff in Hp, Hd. destruct Hp as [[Hc _] Hp], Hd as [Ho Hd]. cbn [s_op s_coef] in *.
    destruct (IH Hp Hd) as [ab' [L' H']]. destruct (cop_aff n o c Hc Ho) as [L H]. set (ab := map (pair1 o) (coefs n c)) in *.
    exists (map2 comp2 ab' ab). split; [rewrite map2_length; lia|]. intros A HA. destruct (H A HA) as [H1 H2].
    assert (LA : length ab = length A) by lia. assert (LA' : length ab' = length A) by lia.
    destruct (H' (aff ab A)) as [E1 _]; [rewrite aff_length; lia|]. destruct (H' (lin ab A)) as [_ E2]; [rewrite lin_length; lia|]. split.
    + change (pcop ({| s_op := o; s_coef := c |} :: p) (M A)) with (pcop p (cop o c (M A))). rewrite H1, E1, aff_comp; auto.
    + rewrite <- lin_comp, <- E2, <- H2 by auto. destruct o; cbn [linp filter s_op]; auto.
Qed.
Lemma leaf_rowaff n t p : leaf_ok n t p -> rowaff n t.
Proof.
  intros [Hp [Hd H]]. destruct (pcop_aff n p Hp Hd) as [ab [L E]]. exists ab. split; auto. intros A HA. destruct (H (M A) HA) as [-> [_ ->]].
  destruct (exec_ok n p Hp (M A) HA) as [-> _]. destruct (exec_ok n (linp p) (linp_okp n p Hp) (M A) HA) as [-> _]. destruct (E A HA) as [-> ->]. auto.
Qed.
Lemma map2_app {A B C} (f : A -> B -> C) u v : forall u' v', length u = length v -> map2 f (u ++ u') (v ++ v') = map2 f u v ++ map2 f u' v'.
Proof. revert v. induction u as [|x u IH]; intros [|y v] u' v' E; try discriminate; auto. cbn. f_equal. apply IH. cbn in E. lia. Qed.
Lemma all_rowaff t : forall n, trained n t -> rowaff n t.
Proof.
  induction t as [r nm|c d nm|s|d nm|l nm IH|l IH] using tf_ind'; intros n H.
  1-4: (edestruct (leaf_prog n) as [p Hp]; [|exact H|eapply leaf_rowaff; exact Hp]; exact I).
  - apply trained_pipe in H. destruct H as [Hl H]. unfold rowaff. cbn [transform transform_ddts].
    enough (G : exists ab, length ab = n /\ forall A, length A = n -> chain transform l (M A) = Ok (M (aff ab A)) /\ chain transform_ddts l (M A) = Ok (M (lin ab A))).
    { destruct G as [ab [L G]]. exists ab. split; auto. intros A HA. rewrite !pipe_chain by auto. auto. }
    clear Hl. induction l as [|t l IHl].
    + exists (repeat (1, 0)%R n). split; [apply repeat_length|]. intros A HA. destruct (aff_id n A HA) as [H1 H2]. now rewrite H1, H2.
    + apply Forall_cons_iff in H, IH. destruct H as [Ht H], IH as [IHt IH]. destruct (IHt n Ht) as [ab [L E]]. destruct (IHl IH H) as [ab' [L' E']].
      exists (map2 comp2 ab' ab). split; [rewrite map2_length; lia|]. intros A HA. rewrite !chain_cons. destruct (E A HA) as [-> ->]. cbn [bind].
      destruct (E' (aff ab A)) as [-> _]; [rewrite aff_length; lia|]. destruct (E' (lin ab A)) as [_ ->]; [rewrite lin_length; lia|].
      rewrite aff_comp, lin_comp by lia. auto.
  - apply trained_multi in H. destruct H as [Hl [ns [-> H]]]. assert (HD := variable_sizes_trained ns l H). unfold rowaff. cbn [transform transform_ddts].
    assert (G : exists ab, length ab = lsumn ns /\ forall A, length A = lsumn ns -> exists Bs Cs,
       zipM transform l (map M (lsplit ns A)) = Ok (map M Bs) /\ zipM transform_ddts l (map M (lsplit ns A)) = Ok (map M Cs) /\
       concat Bs = aff ab A /\ concat Cs = lin ab A /\ length Bs = length l /\ length Cs = length l).
    { clear HD Hl. induction H as [|n t ns l Ht H IH'].
      - exists []. split; auto. intros A HA. destruct A; [|discriminate]. exists [], []. repeat split; reflexivity.
      - apply Forall_cons_iff in IH. destruct IH as [IHt IH]. destruct (IHt n Ht) as [ab [L E]]. destruct (IH' IH) as [ab' [L' E']].
        exists (ab ++ ab'). split; [rewrite app_length; change (lsumn (n :: ns)) with (n + lsumn ns); lia|]. intros A HA. change (lsumn (n :: ns)) with (n + lsumn ns) in HA.
        rewrite <- (firstn_skipn n A). assert (LA : length (firstn n A) = n) by (rewrite firstn_length; lia).
        rewrite lsplit_cons by auto. cbn [map zipM]. destruct (E (firstn n A) LA) as [-> ->]. cbn [bind].
        destruct (E' (skipn n A)) as (Bs & Cs & -> & -> & EB & EC & LB & LC); [rewrite skipn_length; lia|]. cbn [bind].
        exists (aff ab (firstn n A) :: Bs), (lin ab (firstn n A) :: Cs). repeat (split; [reflexivity|]). cbn [concat]. rewrite EB, EC. unfold aff, lin.
        rewrite !map2_app by lia. repeat split; cbn; lia. }
    destruct G as [ab [L G]]. exists ab. split; auto. intros A HA. unfold multi_apply. rewrite (multi_split_ok _ ns) by auto. cbn [bind]. rewrite split_rows_M.
    destruct (G A HA) as (Bs & Cs & -> & -> & EB & EC & LB & LC). cbn [bind]. rewrite !aconcat_M.
    + rewrite EB, EC. auto. + destruct Cs; [destruct l; [congruence|discriminate]|discriminate]. + destruct Bs; [destruct l; [congruence|discriminate]|discriminate].
Qed.
(* ---- the difference formula: linear, and zero on constants ------------------------------------------------------ *)
Definition incr (t : vec) : Prop := forall i, S i < length t -> (vget t i < vget t (S i))%R.
Lemma gradient_affine t f a b : incr t -> 3 <= length t -> length f = length t ->
  gradient (map (fun x => a * x + b)%R f) t = map (fun x => a * x)%R (gradient f t).
Proof.
  intros HI H3 HL. unfold gradient. rewrite map_map. apply map_ext_in. intros i Hi. apply in_seq in Hi.
  assert (G : forall j, j < length f -> vget (map (fun x => a * x + b)%R f) j = (a * vget f j + b)%R).
  { intros j Hj. unfold vget. rewrite nth_indep with (d' := (a * 0 + b)%R) by (rewrite map_length; auto). now rewrite (map_nth (fun x => a * x + b)%R). }
  destruct (Nat.eqb_spec i 0) as [->|N0]; [|destruct (Nat.eqb_spec i (length t - 1)) as [->|N1]].
  - unfold grad_first. rewrite !G by lia. pose proof (HI 0 ltac:(lia)). pose proof (HI 1 ltac:(lia)). field. lra.
  - unfold grad_last. rewrite !G by lia.
    pose proof (HI (length t - 3) ltac:(lia)) as Q1. pose proof (HI (length t - 2) ltac:(lia)) as Q2.
    replace (S (length t - 3)) with (length t - 2) in Q1 by lia. replace (S (length t - 2)) with (length t - 1) in Q2 by lia. field. lra.
  - unfold grad_mid. rewrite !G by lia.
    pose proof (HI (i - 1) ltac:(lia)) as Q1. pose proof (HI i ltac:(lia)) as Q2. replace (S (i - 1)) with i in Q1 by lia. replace (S i) with (i + 1) in Q2 by lia. field. lra.
Qed.
Lemma vtimes_length : length vtimes = 20.
Proof. reflexivity. Qed.
Lemma vtimes_incr : incr vtimes.
Proof.
  intros i Hi. rewrite vtimes_length in Hi. unfold vtimes, vget.
  rewrite !(fun k d => nth_map_in (fun i => INR i * (1 / 10 / 19))%R (seq 0 20) k d 0) by (rewrite seq_length; lia). rewrite !seq_nth by lia. cbn [plus]. rewrite S_INR. lra.
Qed.
Definition dd (A : mat) : mat := map (fun f => gradient f vtimes) A.
Lemma ddt_ok n A : 0 < n -> is_mat n 20 A -> ddt (M A) [AArray (V vtimes)] [] = Ok (dd A).
Proof.
  intros Hn HA. unfold ddt. cbn [length plus call_nonuniform as_time bind ddt_nonuniform]. rewrite (ncols_is_mat n 20) by auto. rewrite vtimes_length. reflexivity.
Qed.
Lemma dd_aff n ab A : is_mat n 20 A -> length ab = n -> dd (aff ab A) = lin ab (dd A).
Proof.
  intros [HL HA] Hab. rewrite <- Hab in HL. clear Hab. revert A HL HA. induction ab as [|[a b] ab IH]; intros [|r A] HL HA; try discriminate; auto.
  apply Forall_cons_iff in HA. destruct HA as [Hr HA]. cbn [aff dd lin map2 map] in *. f_equal.
  - cbn [fst snd]. apply gradient_affine; rewrite ?vtimes_length; auto; [apply vtimes_incr|lia].
  - apply IH; auto.
Qed.
Lemma dd_mat n A : is_mat n 20 A -> is_mat n 20 (dd A).
Proof.
  intros [HL HA]. split; [unfold dd; now rewrite map_length|]. unfold dd. apply Forall_map, Forall_forall. intros r _. unfold gradient. now rewrite map_length, seq_length.
Qed.
(* ---- verify() computes what the methods' values say, and changes no existing array ---------------------------------- *)
Definition resp (fl : bool) (op : bool -> harr -> H (unit * harr)) (f : arr -> res arr) : Prop :=
  forall h x, wf h x -> exists h', (forall z, wf h z -> (fl = true -> disjoint z x) -> rd h' z = rd h z /\ wf h' z) /\
  match f (rd h x) with
  | Ok v => exists y, hsnd (op fl x) h = (h', Ok y) /\ rd h' y = v /\ wf h' y /\ (if fl then y = x else forall z, wf h z -> disjoint z y)
  | Err e => hsnd (op fl x) h = (h', Err e)
  end.
Lemma respects_resp op f fl : respects_inplace op (no_output f) -> resp fl op f.
Proof.
  intros R h x Hw. destruct (op fl x h) as [h' r] eqn:E. destruct (R _ _ _ _ _ Hw E) as [H1 H2]. exists h'. split; auto.
  unfold hsnd, hbind, hret. rewrite E. unfold no_output in H2. destruct r as [[[] y]|e]; destruct (f (rd h x)) as [v|e']; cbn [bind] in H2; try (destruct H2; discriminate); try discriminate.
  - destruct H2 as [H2 [H3 H4]]. injection H2 as H2. exists y. auto.
  - injection H2 as <-. reflexivity.
Qed.
Lemma new_step h a : exists h' y, hnew a h = (h', Ok y) /\ rd h' y = a /\ wf h' y /\ unchanged h h' /\ (forall z, wf h z -> disjoint z y).
Proof.
  unfold hnew. destruct (alloc h a) as [h' y] eqn:E. destruct (alloc_ok _ _ _ _ E) as (N & C & R & W & F). exists h', y. do 3 (split; auto). split.
  - intros z Hz. split; [|apply (wf_mono h); auto]. apply rd_ext. intros b Hb. apply C. destruct Hz as [_ Hz]. rewrite Forall_forall in Hz. auto.
  - intros z Hz b Hb Hb'. destruct Hz as [_ Hz]. rewrite Forall_forall in Hz, F. specialize (Hz b Hb). specialize (F b Hb'). cbn in *. lia.
Qed.
Lemma unch_refl h : unchanged h h. Proof. intros z Hz. auto. Qed.
Lemma unch_trans h1 h2 h3 : unchanged h1 h2 -> unchanged h2 h3 -> unchanged h1 h3.
Proof. intros A B z Hz. destruct (A z Hz) as [E1 W1]. destruct (B z W1) as [E2 W2]. split; auto. congruence. Qed.
Lemma is_self x : harr_is x x = true.
Proof. destruct x; cbn; (destruct list_eq_dec; auto; congruence). Qed.
Lemma is_not x y : disjoint x y -> addrs x <> [] -> harr_is y x = false.
Proof.
  intros D N. destruct (harr_is y x) eqn:E; auto. exfalso. assert (y = x) as ->.
  { destruct y, x; cbn in E; try discriminate; destruct list_eq_dec; congruence. }
  destruct (addrs x) as [|a l] eqn:Ea; [congruence|]. apply (D a); rewrite Ea; left; auto.
Qed.
Lemma rd_addrs n k h x A : rd h x = M A -> is_mat n k A -> 0 < n -> 0 < k -> addrs x <> [].
Proof.
  intros E HA Hn Hk. destruct x as [l|m]; [discriminate|]. cbn in *. injection E as <-. destruct m as [|r m].
  - destruct HA as [HL _]. cbn in HL. lia.
  - destruct HA as [_ HA]. apply Forall_cons_iff in HA. destruct HA as [Hr _]. rewrite map_length in Hr. destruct r; [cbn in Hr; lia|discriminate].
Qed.
Lemma rd_shape h h' x A : rd h x = M A -> exists B, rd h' x = M B /\ forall n k, is_mat n k A -> is_mat n k B.
Proof.
  intros E. destruct x as [l|m]; [discriminate|]. cbn in *. injection E as <-. eexists. split; [reflexivity|]. intros n k [H1 H2]. split; [rewrite map_length in *; auto|].
  apply Forall_map. apply Forall_map in H2. eapply Forall_impl; [|exact H2]. cbn. intros r. rewrite !map_length. auto.
Qed.
(* a copy, changed in place *)
Lemma copy_step op f h x : resp true op f -> wf h x -> exists h',
  unchanged h h' /\
  match f (rd h x) with
  | Ok v => exists c, (forall A (k : harr -> harr -> H A), hbind (hcopy x) (fun c => hbind (hsnd (op true c)) (fun y => k c y)) h = k c c h') /\ rd h' c = v /\ wf h' c /\ (forall z, wf h z -> disjoint z c) /\ exists h1, rd h1 c = rd h x
  | Err e => forall A (k : harr -> harr -> H A), hbind (hcopy x) (fun c => hbind (hsnd (op true c)) (fun y => k c y)) h = (h', Err e)
  end.
Proof.
  intros R Hx. destruct (new_step h (rd h x)) as (h1 & c & E1 & E2 & W1 & U1 & D1). destruct (R h1 c W1) as (h2 & U2 & P). rewrite E2 in P. exists h2. split.
  - intros z Hz. destruct (U1 z Hz) as [Ez Wz]. destruct (U2 z Wz) as [Ez' Wz']; [intros _; apply D1; auto|]. split; auto. congruence.
  - destruct (f (rd h x)) as [v|e].
    + destruct P as (y & P & P1 & P2 & ->). exists c. split; [|eauto 8]. intros A k. unfold hbind at 1. unfold hcopy, hread. rewrite E1. unfold hbind. rewrite P. reflexivity.
    + intros A k. unfold hbind at 1. unfold hcopy, hread. rewrite E1. unfold hbind. rewrite P. reflexivity.
Qed.
Section Sim.
Variables (o : vobj) (T : arr -> res arr) (I0 : arr -> res arr) (Dd : option (arr -> res arr)) (L : arr -> arr -> res unit) (tol : R).
Hypothesis HT : resp true (vo_transform o) T.
Hypothesis HI : forall fl, resp fl (vo_inverse o None) I0.
Hypothesis HD : match vo_ddts o, Dd with Some dd, Some D => forall fl, resp fl dd D | None, None => True | _, _ => False end.
Hypothesis HL : forall h x y, wf h x -> wf h y -> exists h', vo_locs o x y h = (h', L (rd h x) (rd h y)) /\ unchanged h h'.
Definition ddt_val (D : arr -> res arr) (X : mat) (B : arr) : res unit :=
  do _ <- D (M X); do E <- D (M (dd X)); do est <- ddt B [AArray (V vtimes)] [];
  rassert (match E with M E => negb (exceeds E est tol) | V _ => false end).
Definition rest_val (X : mat) : res unit :=
  do B <- T (M X); do C <- I0 B; do _ <- rassert (shape_eqb C (M X)); do _ <- rassert (aclose C (M X)); do _ <- L (M X) B;
  match Dd with None => Ok tt | Some D => ddt_val D X B end.
Lemma hassert_r {A} b (k : unit -> H A) h : hbind (hassert b) k h = if b then k tt h else (h, Err VerificationError).
Proof. destruct b; reflexivity. Qed.
Lemma ddts_sim n dd0 D h x y X : (forall fl, resp fl dd0 D) -> 0 < n -> is_mat n 20 X -> wf h x -> wf h y -> rd h x = M X ->
  exists h', verify_ddts dd0 tol x y h = (h', ddt_val D X (rd h y)) /\ unchanged h h'.
Proof.
  intros R Hn HX Wx Wy Ex. unfold verify_ddts, ddt_val.
  destruct (R false h x Wx) as (h1 & U1 & P1). rewrite Ex in P1. destruct (D (M X)) as [v1|e].
  2:{ exists h1. split; [unfold hbind at 1; rewrite P1; reflexivity|]. intros z Hz. apply U1; auto. discriminate. }
  destruct P1 as (y1 & P1 & _ & _ & _). assert (V1 : unchanged h h1) by (intros z Hz; apply U1; auto; discriminate).
  destruct (V1 x Wx) as [Ex1 Wx1]. destruct (V1 y Wy) as [Ey1 Wy1]. unfold hbind at 1. rewrite P1. cbn [bind].
  unfold hread at 1. rewrite Ex1, Ex. rewrite (ddt_ok n) by auto. unfold hbind at 1. unfold hlift at 1.
  destruct (new_step h1 (M (dd X))) as (h2 & d & E2 & Rd & Wd & U2 & D2). unfold hbind at 1. rewrite E2.
  destruct (U2 y Wy1) as [Ey2 Wy2]. destruct (R false h2 d Wd) as (h3 & U3 & P3). rewrite Rd in P3.
  assert (V3 : unchanged h h3). { apply (unch_trans _ h1); auto. apply (unch_trans _ h2); auto. intros z Hz. apply U3; auto. discriminate. }
  destruct (D (M (dd X))) as [E|e] eqn:ED.
  2:{ exists h3. split; auto. unfold hbind at 1. rewrite P3. reflexivity. }
  destruct P3 as (e & P3 & Re & We & De). unfold hbind at 1. rewrite P3. cbn [bind].
  rewrite hassert_r. rewrite is_not; [|apply De; auto|apply (rd_addrs n 20 h2 d (dd X)); auto; [apply dd_mat; auto|lia]]. cbn [negb].
  unfold hread at 1. destruct (V3 y Wy) as [Ey3 Wy3]. rewrite Ey3. destruct (ddt (rd h y) [AArray (V vtimes)] []) as [est|er]; cbn [bind].
  2:{ exists h3. split; auto. }
  unfold hbind at 1, hlift at 1. unfold hread at 1. rewrite Re. rewrite hassert_r.
  destruct (match E with M E => negb (exceeds E est tol) | V _ => false end); [|exists h3; auto].
  assert (Wd3 : wf h3 d /\ rd h3 d = M (dd X)). { destruct (U3 d Wd) as [Q1 Q2]; [discriminate|]. split; auto. congruence. } destruct Wd3 as [Wd3 Rd3].
  destruct (R true h3 d Wd3) as (h4 & U4 & P4). rewrite Rd3, ED in P4. destruct P4 as (e2 & P4 & _ & _ & ->). exists h4. split.
  - unfold hbind at 1. rewrite P4. rewrite is_self. reflexivity.
  - intros z Hz. destruct (V3 z Hz) as [Q1 Q2]. destruct (U4 z Q2) as [Q3 Q4]; [|split; auto; congruence]. intros _. apply D2. apply V1; auto.
Qed.
Lemma rest_sim n h x X : 0 < n -> is_mat n 20 X -> wf h x -> rd h x = M X ->
  exists h', verify_rest o tol x h = (h', rest_val X) /\ unchanged h h'.
Proof.
  intros Hn HX Wx Ex. unfold verify_rest, rest_val. destruct (copy_step _ _ h x HT Wx) as (h1 & U1 & P1). rewrite Ex in P1.
  destruct (T (M X)) as [B|e]; [|exists h1; split; auto; rewrite P1; reflexivity]. destruct P1 as (c & P1 & Rc & Wc & Dc & hc & Sc). rewrite P1. clear P1. cbn [bind].
  rewrite hassert_r, is_self. assert (Nx : addrs x <> []) by (apply (rd_addrs n 20 h x X); auto; lia).
  destruct (HI false h1 c Wc) as (h2 & U2 & P2). rewrite Rc in P2. assert (V2 : unchanged h1 h2) by (intros z Hz; apply U2; auto; discriminate). assert (V2' := unch_trans _ _ _ U1 V2).
  destruct (I0 B) as [C|e] eqn:EC; cbn [bind]; [|exists h2; split; auto; unfold hbind at 1; rewrite P2; reflexivity].
  destruct P2 as (z0 & P2 & Rz & Wz & Dz). unfold hbind at 1. rewrite P2. unfold hread at 1 2. rewrite Rz. destruct (V2' x Wx) as [Ex2 Wx2]. rewrite Ex2, Ex.
  rewrite hassert_r. destruct (shape_eqb C (M X)) eqn:ES; cbn [rassert bind]; [|exists h2; auto]. rewrite hassert_r.
  destruct (V2 c Wc) as [Ec2 Wc2]. destruct (copy_step _ _ h2 c (HI true) Wc2) as (h3 & U3 & P3). rewrite Ec2, Rc, EC in P3. assert (V3 := unch_trans _ _ _ V2' U3).
  rewrite is_not; [|apply Dz; auto|apply (rd_addrs n 20 hc c X); auto; try congruence; lia]. cbn [negb]. destruct P3 as (w & P3 & Rw & Ww & Dw & _). rewrite P3. clear P3.
  rewrite hassert_r, is_self. unfold hread at 1 2. rewrite Rw. destruct (V3 x Wx) as [Ex3 Wx3]. rewrite Ex3, Ex. rewrite hassert_r.
  destruct (aclose C (M X)); cbn [rassert bind]; [|exists h3; auto]. destruct (U3 c Wc2) as [Ec3 Wc3].
  destruct (HL h3 x c Wx3 Wc3) as (h4 & P4 & U4). assert (V4 := unch_trans _ _ _ V3 U4). unfold hbind at 1. rewrite P4, Ex3, Ex, Ec3, Ec2, Rc.
  destruct (L (M X) B) as [[]|e]; cbn [bind]; [|exists h4; auto]. destruct (V4 x Wx) as [Ex4 Wx4]. destruct (U4 c Wc3) as [Ec4 Wc4].
  destruct (vo_ddts o) as [dd0|], Dd as [D|]; [|contradiction|contradiction|exists h4; auto].
  destruct (ddts_sim n dd0 D h4 x c X HD Hn HX Wx4 Wc4 ltac:(congruence)) as (h5 & P5 & U5). exists h5. split; [|apply (unch_trans _ h4); auto].
  rewrite P5. congruence.
Qed.
Definition verify_val (X : mat) : res unit := do B <- T (M X); do _ <- rassert (shape_eqb B (M X)); rest_val X.
Lemma verify_sim n h X : resp false (vo_transform o) T -> vo_dim o = Some n -> 0 < n -> is_mat n 20 (X n) ->
  exists h', h_verify o X tol h = (h', verify_val (X n)) /\ unchanged h h'.
Proof.
  intros HT' Hd Hn HX. unfold h_verify, verify_val. rewrite Hd. destruct (new_step h (M (X n))) as (h1 & x & E1 & Rx & Wx & U1 & _).
  unfold hbind at 1. rewrite E1. destruct (HT' h1 x Wx) as (h2 & U2 & P2). rewrite Rx in P2. assert (V2 : unchanged h1 h2) by (intros z Hz; apply U2; auto; discriminate).
  assert (V2' := unch_trans _ _ _ U1 V2). destruct (T (M (X n))) as [B|e] eqn:ET; cbn [bind]; [|exists h2; split; auto; unfold hbind at 1; rewrite P2; reflexivity].
  destruct P2 as (y & P2 & Ry & Wy & Dy). unfold hbind at 1. rewrite P2. unfold hread at 1 2. destruct (V2 x Wx) as [Ex2 Wx2]. rewrite Ry, Ex2, Rx. rewrite hassert_r.
  destruct (shape_eqb B (M (X n))); cbn [rassert bind]; [|exists h2; auto]. rewrite hassert_r.
  rewrite is_not; [|apply Dy; auto|apply (rd_addrs n 20 h1 x (X n)); auto; lia]. cbn [negb].
  destruct (rest_sim n h2 x (X n) Hn HX Wx2 ltac:(congruence)) as (h3 & P3 & U3). exists h3. split; [|apply (unch_trans _ h2); auto]. rewrite P3. reflexivity.
Qed.
End Sim.

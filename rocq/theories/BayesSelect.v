(* BayesSelect.v -- the selection of the regularization of a Bayesian reduced-order model. *)
From Coq Require Import ZArith Reals Lia Lra Permutation.
From Verif Require Import LinAlg MatAlg SolverReg MonoFinal RegselUpdate RegselCore GridProofs.
From Verif Require Export BayesProofs.
#[local] Open Scope nat_scope.

(* ---- a search with memory ---- *)
Definition cl_param {St} (c : St * param * res fnum) : param := snd (fst c).
Lemma calls_app {St} (f : St -> param -> St * res fnum) s L s1 L' s' : calls f s L s1 -> calls f s1 L' s' -> calls f s (L ++ L') s'.
Proof. induction 1; cbn; auto. intros. econstructor; eauto. Qed.
Lemma grid_calls {St} (f : St -> param -> St * res fnum) l : forall i best w s s' best' w', grid f l i best w s = (s', Ok (best', w')) ->
  exists L, calls f s L s' /\ map cl_param L = l /\ (forall c, In c L -> exists u, snd c = Ok u /\ flt u best' = false) /\
    ((best' = best /\ w' = w) \/ exists j sp, w' = Some (i + j) /\ j < length l /\ In (sp, nth j l (SpecGrid.PS SpecLift.NaN), Ok best') L /\ flt best' best = true).
Proof. induction l as [|c l IH]; cbn [grid]; intros i best w s s' best' w' E.
  - injection E as <- <- <-. exists []. split; [constructor|]. split; auto. split; [intros c []|auto].
  - destruct (f s c) as [s1 [v|e]] eqn:Ef; [|discriminate]. destruct (flt v best) eqn:Ev.
    + destruct (IH _ _ _ _ _ _ _ E) as (L & H1 & H2 & H3 & H4). exists ((s, c, Ok v) :: L). split; [econstructor; eauto|]. split; [cbn; f_equal; auto|]. split.
      * intros x [<-|Hx]; auto. cbn [snd]. exists v. split; auto. destruct H4 as [[-> _]|(j & sp & _ & _ & _ & Hlt)]; [apply flt_irrefl|]. destruct (flt v best') eqn:Ex; auto. assert (K := flt_trans _ _ _ Ex Hlt). rewrite flt_irrefl in K. discriminate.
      * right. destruct H4 as [[-> ->]|(j & sp & -> & Hj & Hin & Hlt)].
        { exists 0, s. split; [f_equal; lia|]. split; [cbn; lia|]. split; auto. left. reflexivity. }
        { exists (S j), sp. split; [f_equal; lia|]. split; [cbn; lia|]. split; [right; auto|]. eapply flt_trans; eauto. }
    + destruct (IH _ _ _ _ _ _ _ E) as (L & H1 & H2 & H3 & H4). exists ((s, c, Ok v) :: L). split; [econstructor; eauto|]. split; [cbn; f_equal; auto|]. split.
      * intros x [<-|Hx]; auto. cbn [snd]. exists v. split; auto. destruct H4 as [[-> _]|(j & sp & _ & _ & _ & Hlt)]; auto. eapply flt_keep; eauto.
      * destruct H4 as [[-> ->]|(j & sp & -> & Hj & Hin & Hlt)]; auto. right. exists (S j), sp. split; [f_equal; lia|]. split; [cbn; lia|]. split; [right; auto|auto]. Qed.
Lemma grid_none {St} (f : St -> param -> St * res fnum) l : forall i best w s s' e, grid f l i best w s = (s', Err e) -> exists L sp p s1, calls f s L sp /\ f sp p = (s1, Err e) /\ In p l.
Proof. induction l as [|c l IH]; cbn [grid]; intros i best w s s' e E; [discriminate|]. destruct (f s c) as [s1 [v|e1]] eqn:Ef.
  - destruct (flt v best); destruct (IH _ _ _ _ _ _ E) as (L & sp & p & s2 & H1 & H2 & H3); exists ((s, c, Ok v) :: L), sp, p, s2; (split; [econstructor; eauto|]); split; auto; right; auto.
  - injection E as <- <-. exists [], s, c, s1. split; [constructor|]. split; auto. left. auto. Qed.
Lemma run_calls {St} (f : St -> param -> St * res fnum) o : forall log L0 s s' ok x fv,
  (forall y v, In (y, v) log -> exists sp u, In (sp, pow10p y, Ok u) L0 /\ v = clip u) -> honest log o -> GridModel.run f o s = (s', Ok (ok, x, fv)) ->
  exists L, calls f s L s' /\ (forall c, In c L -> exists u, snd c = Ok u) /\ exists sp u, In (sp, pow10p x, Ok u) (L0 ++ L) /\ fv = clip u.
Proof. induction o as [ok0 x0 fv0|x0 k IH|e0]; intros log L0 s s' ok x fv HL HH E; cbn [GridModel.run honest] in *; [| |discriminate].
  - injection E as <- <- <- <-. exists []. split; [constructor|]. split; [intros c []|]. rewrite app_nil_r. auto.
  - destruct (f s (pow10p x0)) as [s1 [v|e]] eqn:Ef; [|discriminate].
    destruct (IH (clip v) ((x0, clip v) :: log) (L0 ++ [(s, pow10p x0, Ok v)]) s1 s' ok x fv) as (L & H1 & H2 & sp & u & H3 & H4); auto.
    { intros y w [[= <- <-]|Hy]; [exists s, v; split; auto; apply in_or_app; right; left; auto|]. destruct (HL y w Hy) as (sp & u & Hu & Hw). exists sp, u. split; auto. apply in_or_app. auto. }
    exists ((s, pow10p x0, Ok v) :: L). split; [econstructor; eauto|]. split; [intros c [<-|Hc]; [exists v; auto|auto]|]. exists sp, u. rewrite <- app_assoc in H3. auto. Qed.
Theorem search_calls {St} (f : St -> param -> St * res fnum) bounded nm only c s s' p :
  (forall a b, honest [] (bounded a b)) -> (forall x, honest [] (nm x)) -> gridsearch f bounded nm only c s = (s', Ok p) ->
  exists L1 L2 sp v, calls f s (L1 ++ L2) s' /\ Permutation (points c) (map cl_param L1) /\ (only = true -> L2 = []) /\ (forall x, In x (L1 ++ L2) -> exists u, snd x = Ok u) /\
    In (sp, p, Ok v) (L1 ++ L2) /\ feasible v /\ forall q u, In q L1 -> snd q = Ok u -> flt u v = false.
Proof. intros Hb Hn E. destruct (process c) as [cs|e] eqn:EP; [|unfold gridsearch in E; rewrite EP in E; discriminate].
  destruct (process_ok c cs EP) as (_ & HP & _). change (gs f bounded nm only c s = (s', Ok p)) in E. rewrite (gs_unfold f bounded nm only c cs s EP) in E.
  destruct (grid f (pts_of cs) 0 PInf None s) as [s1 [[best [w|]]|e]] eqn:EG; try discriminate.
  destruct (grid_calls f _ _ _ _ _ _ _ _ EG) as (L1 & C1 & M1 & H1 & [[_ ?]|(j & sp & [= ->] & Hj & Hin & Hlt)]); [discriminate|]. cbn [Nat.add] in *. apply flt_PInf in Hlt.
  assert (HP1 : Permutation (points c) (map cl_param L1)) by (rewrite M1; auto).
  assert (H1' : forall x, In x L1 -> exists u, snd x = Ok u) by (intros x Hx; destruct (H1 x Hx) as (u & Hu & _); eauto).
  assert (Hw : forall L2, calls f s1 L2 s' -> (only = true -> L2 = []) -> (forall x, In x L2 -> exists u, snd x = Ok u) -> p = nth j (pts_of cs) (SpecGrid.PS SpecLift.NaN) -> exists L1 L2 sp v, calls f s (L1 ++ L2) s' /\ Permutation (points c) (map cl_param L1) /\ (only = true -> L2 = []) /\ (forall x, In x (L1 ++ L2) -> exists u, snd x = Ok u) /\
    In (sp, p, Ok v) (L1 ++ L2) /\ feasible v /\ forall q u, In q L1 -> snd q = Ok u -> flt u v = false).
  { intros L2 C2 HO H2 ->. exists L1, L2, sp, best. split; [eapply calls_app; eauto|]. split; auto. split; auto. split; [intros x Hx; apply in_app_or in Hx; destruct Hx; auto|]. split; [apply in_or_app; auto|]. split; auto.
    intros q u Hq Hu. destruct (H1 q Hq) as (u' & Hu' & Hl). congruence. }
  unfold after in E. destruct only. { injection E as <- <-. apply (Hw []); auto; [constructor|intros x []]. }
  assert (K : forall o, honest [] o -> report (nth j (pts_of cs) (SpecGrid.PS SpecLift.NaN)) best (GridModel.run f o s1) = (s', Ok p) -> exists L1 L2 sp v, calls f s (L1 ++ L2) s' /\ Permutation (points c) (map cl_param L1) /\ (false = true -> L2 = []) /\ (forall x, In x (L1 ++ L2) -> exists u, snd x = Ok u) /\
    In (sp, p, Ok v) (L1 ++ L2) /\ feasible v /\ forall q u, In q L1 -> snd q = Ok u -> flt u v = false).
  { intros o Ho ER. destruct (GridModel.run f o s1) as [s2 [[[ok x] fv]|e]] eqn:Er; [|cbn in ER; discriminate].
    destruct (run_calls f o [] L1 s1 s2 ok x fv ltac:(intros y v []) Ho Er) as (L2 & C2 & H2 & sp2 & u & Hu & ->).
    assert (ER' := ER). apply report_ok in ER. destruct ER as [Ep|(ok' & x' & fv & [= -> -> -> <-] & _ & K1 & K2 & ->)].
    - assert (s2 = s') as -> by (cbn in ER'; destruct (_ || _) in ER'; congruence). apply (Hw L2); auto; discriminate.
    - destruct (clip_good u best K1 K2 Hlt) as (F1 & F2 & F3). exists L1, L2, sp2, u. split; [eapply calls_app; eauto|]. split; auto. split; [discriminate|]. split; [intros y Hy; apply in_app_or in Hy; destruct Hy; auto|]. split; auto. split; auto.
      intros q u' Hq Hu'. destruct (H1 q Hq) as (u2 & Hu2 & Hl). rewrite Hu' in Hu2. injection Hu2 as <-. destruct (flt_le_trans u' best u Hlt F1 Hl F3) as [?| ->]; auto. }
  destruct cs as [l|l]; [destruct (search_bounds (sort l) j) as [lo hi]|]; (eapply K; [|exact E]); auto. apply minimize_honest; auto. Qed.

(* ---- draws are determined by the generator ---- *)
Lemma samples_det {G} (normal : vec -> mat -> G -> G * vec) p g A g1 B g2 : samples normal p g A g1 -> samples normal p g B g2 -> A = B /\ g1 = g2.
Proof. intros (L1 & gs & A1 & A2 & A3) (L2 & hs & B1 & B2 & B3). assert (HG : forall i, i <= length A -> gs i = hs i).
  { induction i as [|i IH]; intros Hi; [congruence|]. specialize (A3 i ltac:(lia)). specialize (B3 i ltac:(lia)). rewrite IH in A3 by lia. congruence. }
  assert (length A = length B) by congruence. split.
  - apply (nth_ext _ _ [] []); auto. intros i Hi. specialize (A3 i Hi). specialize (B3 i ltac:(lia)). rewrite HG in A3 by lia. congruence.
  - rewrite <- A2, <- B2. rewrite HG by lia. congruence. Qed.
Lemma entries2_inj e e' : cls_of e = cls_of e' -> entries2 e = entries2 e' -> e = e'.
Proof. destruct e, e'; cbn; try discriminate; intros Hc E; try congruence. f_equal. clear Hc. revert c0 E. induction c as [|x c IH]; intros [|y c0] E; cbn in E; try discriminate; auto. injection E as -> E. f_equal. auto. Qed.
Lemma carries_unique d A d1 d2 : sinv d -> carries d A d1 -> carries d A d2 -> d1 = d2.
Proof. intros HI ((a1 & a2 & a3 & a4 & a5 & a6) & a7 & a8 & a9 & a10 & a11 & _ & r & m & Er & Em & HD1) ((b1 & b2 & b3 & b4 & b5 & b6) & b7 & b8 & b9 & b10 & b11 & _ & r' & m' & Er' & Em' & HD2).
  assert (r' = r) by congruence. assert (m' = m) by congruence. subst r' m'. apply model_ext; try congruence. apply list_ext_nth. intros i.
  assert (HW : forall x, map mo_cls (m_ops x) = map mo_cls (m_ops d) -> op_width x r m i = op_width d r m i).
  { intros x Hx. unfold op_width. assert (E : nth_error (map mo_cls (m_ops x)) i = nth_error (map mo_cls (m_ops d)) i) by congruence. rewrite !nth_error_map in E. destruct (nth_error (m_ops x) i), (nth_error (m_ops d) i); cbn in E; try discriminate; auto. injection E as ->. auto. }
  destruct (Nat.lt_ge_cases i (length (m_ops d))) as [Hi|Hi].
  - apply (sinv_in d i HI) in Hi. destruct Hi as [Hi|Hi]; [|rewrite a6, b6; auto]. destruct (in_split _ _ Hi) as (pre & po & Es).
    destruct HD1 as (_ & HD1), HD2 as (_ & HD2). destruct (HD1 pre i po ltac:(congruence)) as (o1 & e1 & F1 & F2 & F3 & F4 & F5). destruct (HD2 pre i po ltac:(congruence)) as (o2 & e2 & K1 & K2 & K3 & K4 & K5).
    assert (Hc : mo_cls o1 = mo_cls o2). { assert (E : nth_error (map mo_cls (m_ops d1)) i = nth_error (map mo_cls (m_ops d2)) i) by congruence. rewrite !nth_error_map, F1, K1 in E. cbn in E. congruence. }
    rewrite (HW d1 a5) in F4, F5. rewrite (HW d2 b5) in K4, K5.
    assert (Hpre : map (op_width d1 r m) pre = map (op_width d2 r m) pre).
    { apply map_ext_in. intros j _. unfold op_width. assert (E : nth_error (map mo_cls (m_ops d1)) j = nth_error (map mo_cls (m_ops d2)) j) by congruence. rewrite !nth_error_map in E. destruct (nth_error (m_ops d1) j), (nth_error (m_ops d2) j); cbn in E; try discriminate; auto. injection E as ->. auto. }
    assert (e1 = e2) as -> by (apply entries2_inj; [congruence|]; apply (mat_ext r (op_width d r m i)); auto; intros a b Ha Hb; rewrite F5, K5, Hpre by auto; auto).
    rewrite F1, K1. f_equal. destruct o1, o2. cbn in *. congruence.
  - apply (f_equal (@length _)) in a5, b5. rewrite !map_length in *. transitivity (@None mop); [|symmetry]; apply nth_error_None; lia. Qed.
Lemma successive_app {G} (normal : vec -> mat -> G -> G * vec) d p g a h : successive normal d p g a h -> forall b k, successive normal d p h b k -> successive normal d p g (a ++ b) k.
Proof. induction 1; cbn; auto. intros b k Hb. econstructor; eauto. Qed.
Lemma successive_split {G} (normal : vec -> mat -> G -> G * vec) d p a : forall g b k, successive normal d p g (a ++ b) k -> exists h, successive normal d p g a h /\ successive normal d p h b k.
Proof. induction a as [|x a IH]; intros g b k H; cbn in H; [exists g; split; auto; constructor|]. inversion H as [|? A g1 ? ? ? H1 H2 H3]; subst. destruct (IH _ _ _ H3) as (h & K1 & K2). exists h. split; auto. econstructor; eauto. Qed.

Lemma setreg_ready X d0 r m s0 D Z g d : ready X d0 r m s0 D Z -> valid_reg g -> set_regularizer g d0 = (d, Ok tt) -> exists s, ready X d r m s D Z.
Proof. intros HR HG E. unfold set_regularizer in E. rewrite (rd_s _ _ _ _ _ _ _ HR) in E. destruct (lsq_setreg s0 g) as [s x] eqn:Es. injection E as <- ->. exists s. destruct HR as [R1 R2 R3 R4 R5 R6 R7 R8 R9 R10].
  assert (HW := lsq_setreg_winv X s0 g R4 HG). rewrite Es in HW. cbn [fst] in HW. constructor; cbn; auto; [destruct R1; constructor; cbn; auto|]. exact (lsq_setreg_clean X s0 g s D Z R4 HG R5 Es). Qed.

Section Trial.
  Context {G : Type}.
  Variable normal : vec -> mat -> G -> G * vec.
  Hypothesis HN : keeps_size normal.
  Variables (X : lsx) (MX : mvn).
  Hypotheses (HX : lsx_ok X) (HM : inverts MX).

  (* ---- draws, for one posterior ---- *)
  Section One.
    Variables (d : model) (r m : nat) (s : lsq) (D Z : mat) (q : post).
    Hypotheses (HR : ready X d r m s D Z) (HP : posterior_of X MX d = Ok q).
    Notation St d1 g := (Build_bstate d1 (Some q) g).
    Notation succ := (successive normal d q).
    Lemma draw_is d1 g A g' d2 : akin d d1 -> samples normal q g A g' -> carries d A d2 -> draw normal (St d1 g) = (St d2 g', Ok tt) /\ akin d d2.
    Proof. intros Hd HS HC. destruct (draw_ok normal HN X MX d r m s D Z q HX HM HR HP d1 g Hd) as (B & h & d3 & E & K1 & K2 & K3). destruct (samples_det _ _ _ _ _ _ _ HS K1) as (<- & <-).
      assert (d3 = d2) as -> by (eapply carries_unique; eauto; apply (rd_i _ _ _ _ _ _ _ HR)). auto. Qed.

    (* the tests *)
    Lemma test_draws_fwd c : forall ds g h d1, succ g ds h -> Forall (fun d' => test_ok d' c) ds -> akin d d1 -> exists d2, test_draws normal (length ds) c (St d1 g) = (St d2 h, Ok true) /\ akin d d2.
    Proof. induction ds as [|x ds IH]; intros g h d1 HS HT Hd; inversion HS as [|? A g1 ? ? ? S1 S2 S3]; subst; cbn [length test_draws]; [eauto|]. inversion HT as [|? ? (y & Ey & Eu) HT']; subst.
      destruct (draw_is d1 g A g1 x Hd S1 S2) as (-> & Hx). cbn [bs_model]. unfold evaluate. rewrite Ey. cbn [bind]. rewrite Eu. cbn [negb]. apply IH; auto. Qed.
    Lemma test_draws_bwd c : forall n g d1 st' x, akin d d1 -> test_draws normal n c (St d1 g) = (st', x) ->
      exists ds d2 h, st' = St d2 h /\ succ g ds h /\ akin d d2 /\ (x = Ok true -> length ds = n /\ Forall (fun d' => test_ok d' c) ds).
    Proof. induction n as [|n IH]; intros g d1 st' x Hd E; cbn [test_draws] in E.
      - injection E as <- <-. exists [], d1, g. split; auto. split; [constructor|]. split; auto.
      - destruct (draw_ok normal HN X MX d r m s D Z q HX HM HR HP d1 g Hd) as (A & g1 & d2 & E1 & S1 & S2 & S3). rewrite E1 in E. cbn [bs_model] in E. unfold evaluate in E.
        assert (Hstop : exists ds d3 h, St d2 g1 = St d3 h /\ succ g ds h /\ akin d d3) by (exists [d2], d2, g1; split; auto; split; auto; econstructor; eauto; constructor).
        destruct (st_predict c d2) as [y|] eqn:Ey; cbn [bind] in E. 2:{ injection E as <- <-. destruct Hstop as (ds & d3 & h & K1 & K2 & K3). exists ds, d3, h. repeat (split; auto); discriminate. }
        destruct (st_unstable c y) eqn:Eu; cbn [negb] in E. { injection E as <- <-. destruct Hstop as (ds & d3 & h & K1 & K2 & K3). exists ds, d3, h. repeat (split; auto); discriminate. }
        destruct (IH _ _ _ _ S3 E) as (ds & d3 & h & -> & K1 & K2 & K3). exists (d2 :: ds), d3, h. split; auto. split; [econstructor; eauto|]. split; auto. intros Hx. destruct (K3 Hx) as (<- & K4). split; auto. constructor; auto. exists y. auto. Qed.
    Lemma test_all_fwd N : forall l T g h d1, succ g (concat T) h -> Forall2 (fun c l => length l = N /\ Forall (fun d' => test_ok d' c) l) l T -> akin d d1 ->
      exists d2, test_all normal N l (St d1 g) = (St d2 h, Ok true) /\ akin d d2.
    Proof. intros l T g h d1 HS HF. revert g h d1 HS. induction HF as [|c ds l T (<- & HT) HF IH]; intros g h d1 HS Hd; cbn [concat test_all] in *; [inversion HS; subst; eauto|].
      destruct (successive_split _ _ _ _ _ _ _ HS) as (k & S1 & S2). destruct (test_draws_fwd c ds g k d1 S1 HT Hd) as (d2 & -> & Hd2). apply IH; auto. Qed.
    Lemma test_all_bwd N : forall l g d1 st' x, akin d d1 -> test_all normal N l (St d1 g) = (st', x) ->
      exists ds d2 h, st' = St d2 h /\ succ g ds h /\ akin d d2 /\ (x = Ok true -> exists T, ds = concat T /\ Forall2 (fun c l => length l = N /\ Forall (fun d' => test_ok d' c) l) l T).
    Proof. induction l as [|c l IH]; intros g d1 st' x Hd E; cbn [test_all] in E.
      - injection E as <- <-. exists [], d1, g. split; auto. split; [constructor|]. split; auto. intros _. exists []. auto.
      - destruct (test_draws normal N c (St d1 g)) as [s1 x1] eqn:E1. destruct (test_draws_bwd c N g d1 s1 x1 Hd E1) as (ds & d2 & h & -> & K1 & K2 & K3).
        destruct x1 as [[]|]; try (injection E as <- <-; exists ds, d2, h; repeat (split; auto); discriminate). destruct (K3 eq_refl) as (K4 & K5).
        destruct (IH _ _ _ _ K2 E) as (ds' & d3 & h' & -> & L1 & L2 & L3). exists (ds ++ ds'), d3, h'. split; auto. split; [eapply successive_app; eauto|]. split; auto. intros Hx. destruct (L3 Hx) as (T & -> & HT). exists (ds :: T). split; auto. Qed.

    (* the trajectories *)
    Definition stays (c : sel_case model) (d' : model) (y : sol) : Prop := sc_predict c d' = Ok y /\ sc_unstable c y = false.
    Definition case_val (kc : nat * sel_case model) (l : list model) (v : fnum) : Prop := exists ys, Forall2 (stays (snd kc)) l ys /\ (do m <- mean_draws (fst kc) ys; sc_error (snd kc) m) = Ok v.
    Lemma case_draws_fwd c : forall ds ys g h d1, succ g ds h -> Forall2 (stays c) ds ys -> akin d d1 -> exists d2, case_draws normal (length ds) c (St d1 g) = (St d2 h, Ok (Some ys)) /\ akin d d2.
    Proof. induction ds as [|x ds IH]; intros ys g h d1 HS HT Hd; inversion HS as [|? A g1 ? ? ? S1 S2 S3]; subst; cbn [length case_draws]; inversion HT as [|? y ? ys' (Ey & Eu) HT']; subst; [eauto|].
      destruct (draw_is d1 g A g1 x Hd S1 S2) as (-> & Hx). cbn [bs_model]. rewrite Ey, Eu. destruct (IH _ _ _ _ S3 HT' Hx) as (d2 & -> & Hd2). eauto. Qed.
    Lemma case_draws_bwd c : forall n g d1 st' x, akin d d1 -> case_draws normal n c (St d1 g) = (st', x) ->
      exists ds d2 h, st' = St d2 h /\ succ g ds h /\ akin d d2 /\ (forall ys, x = Ok (Some ys) -> length ds = n /\ Forall2 (stays c) ds ys).
    Proof. induction n as [|n IH]; intros g d1 st' x Hd E; cbn [case_draws] in E.
      - injection E as <- <-. exists [], d1, g. split; auto. split; [constructor|]. split; auto. intros ys [= <-]. auto.
      - destruct (draw_ok normal HN X MX d r m s D Z q HX HM HR HP d1 g Hd) as (A & g1 & d2 & E1 & S1 & S2 & S3). rewrite E1 in E. cbn [bs_model] in E.
        assert (Hstop : exists ds d3 h, St d2 g1 = St d3 h /\ succ g ds h /\ akin d d3) by (exists [d2], d2, g1; split; auto; split; auto; econstructor; eauto; constructor).
        destruct (sc_predict c d2) as [y|] eqn:Ey. 2:{ injection E as <- <-. destruct Hstop as (ds & d3 & h & K1 & K2 & K3). exists ds, d3, h. repeat (split; auto); discriminate. }
        destruct (sc_unstable c y) eqn:Eu. { injection E as <- <-. destruct Hstop as (ds & d3 & h & K1 & K2 & K3). exists ds, d3, h. repeat (split; auto); discriminate. }
        destruct (case_draws normal n c (St d2 g1)) as [s2 x2] eqn:E2. destruct (IH _ _ _ _ S3 E2) as (ds & d3 & h & -> & K1 & K2 & K3).
        assert (Hst : st' = St d3 h) by (destruct x2 as [[ys|]|]; congruence). exists (d2 :: ds), d3, h. split; auto. split; [econstructor; eauto|]. split; auto. intros ys ->. destruct x2 as [[ys'|]|]; try discriminate. injection E as _ <-.
        destruct (K3 ys' eq_refl) as (<- & K4). split; auto. constructor; auto. split; auto. Qed.
    Definition pair_ok (N : nat) (kc : nat * sel_case model) (lx : list model * R) : Prop := length (fst lx) = N /\ case_val kc (fst lx) (F (snd lx)).
    Lemma sum_draws_fwd N : forall l Ds xs e g h d1, succ g (concat Ds) h -> length Ds = length xs -> Forall2 (pair_ok N) l (combine Ds xs) -> akin d d1 ->
      exists d2, sum_draws normal N l (F e) (St d1 g) = (St d2 h, Ok (Some (F (fold_left Rplus xs e)))) /\ akin d d2.
    Proof. induction l as [|[k c] l IH]; intros Ds xs e g h d1 HS HL HF Hd; cbn [sum_draws].
      - destruct Ds as [|a Ds], xs as [|x xs]; try discriminate; [|inversion HF]. cbn in *. inversion HS; subst. eauto.
      - destruct Ds as [|a Ds], xs as [|x xs]; try discriminate; [inversion HF|]. cbn [concat combine fold_left length] in *. injection HL as HL. inversion HF as [|? ? ? ? (H1 & ys & H2 & H3) HF']; subst. cbn [fst snd] in *.
        destruct (successive_split _ _ _ _ _ _ _ HS) as (k' & S1 & S2). destruct (case_draws_fwd c a ys g k' d1 S1 H2 Hd) as (d2 & E2 & Hd2). rewrite E2, H3. cbn [fadd]. apply (IH Ds xs (e + x)%R k' h d2); auto. Qed.
    Lemma sum_draws_bwd N : forall l v g d1 st' x, akin d d1 -> sum_draws normal N l v (St d1 g) = (st', x) ->
      exists ds d2 h, st' = St d2 h /\ succ g ds h /\ akin d d2 /\
        (forall y, x = Ok (Some (F y)) -> exists e Ds xs, v = F e /\ ds = concat Ds /\ length Ds = length xs /\ Forall2 (pair_ok N) l (combine Ds xs) /\ y = fold_left Rplus xs e).
    Proof. induction l as [|[k c] l IH]; intros v g d1 st' x Hd E; cbn [sum_draws] in E.
      - injection E as <- <-. exists [], d1, g. split; auto. split; [constructor|]. split; auto. intros y [= ->]. exists y, [], []. repeat (split; auto). constructor.
      - destruct (case_draws normal N c (St d1 g)) as [s1 x1] eqn:E1. destruct (case_draws_bwd c N g d1 s1 x1 Hd E1) as (ds & d2 & h & -> & K1 & K2 & K3).
        destruct x1 as [[ys|]|]; try (injection E as <- <-; exists ds, d2, h; repeat (split; auto); intros; discriminate). destruct (K3 ys eq_refl) as (K4 & K5).
        destruct (do m <- mean_draws k ys; sc_error c m) as [w|] eqn:Ew; [|injection E as <- <-; exists ds, d2, h; repeat (split; auto); intros; discriminate].
        destruct (IH _ _ _ _ _ K2 E) as (ds' & d3 & h' & -> & L1 & L2 & L3). exists (ds ++ ds'), d3, h'. split; auto. split; [eapply successive_app; eauto|]. split; auto. intros y Hy.
        destruct (L3 y Hy) as (e & Ds & xs & Ee & -> & HL & HF & ->). destruct v as [v| | |], w as [w| | |]; try discriminate. cbn in Ee. injection Ee as <-. exists v, (ds :: Ds), (w :: xs). split; auto. split; auto. split; [cbn; lia|]. split; auto.
        cbn [combine]. constructor; auto. split; auto. exists ys. auto. Qed.
  End One.

  (* ---- a trial ---- *)
  Variables (factory : param -> res sreg) (d0 : model) (r m : nat) (s0 : lsq) (D Z : mat).
  Hypotheses (HR0 : ready X d0 r m s0 D Z) (HG : forall p g, factory p = Ok g -> valid_reg g).
  Lemma candidate_fun p d d' : with_candidate factory d0 p d -> with_candidate factory d0 p d' -> d = d'.
  Proof. intros (g & s & E1 & E2 & E3 & E4) (g' & s' & F1 & F2 & F3 & F4). congruence. Qed.
  Lemma candidate_ready p d : with_candidate factory d0 p d -> exists s, ready X d r m s D Z.
  Proof. intros (g & s & E1 & E2 & E3 & E4). eapply setreg_ready; eauto. Qed.
  Lemma bupdate_is (st : bstate G) p d : variant d0 (bs_model st) -> with_candidate factory d0 p d -> exists d1, akin d d1 /\ variant d0 d1 /\
    bupdate X MX factory st p = match initialize X MX d with Err e => (Build_bstate d1 (bs_post st) (bs_gen st), Err e) | Ok q => (Build_bstate d1 q (bs_gen st), Ok tt) end.
  Proof. intros HV (g & s & E1 & E2 & E3 & E4). assert (HV' := HV). destruct HV' as (A1 & A2 & A3 & A4 & A5 & A6 & A7 & A8 & A9 & A10 & A11). unfold bupdate. rewrite E1. rewrite E2 in A9.
    destruct (m_solver (bs_model st)) as [z|] eqn:Ez; [|discriminate]. cbn [option_map] in A9. injection A9 as A9. destruct (setreg_det s z g (eq_sym A9) E3) as (B0 & B1 & B2). rewrite B0. cbn [negb]. rewrite Bool.andb_false_r.
    unfold set_regularizer in *. rewrite Ez. rewrite E2 in E4. assert (C0 := setreg_bare z g B0). destruct (lsq_setreg s g) as [s1 x1], (lsq_setreg z g) as [s2 x2]. injection E4 as <- ->. cbn [fst snd] in *. subst x2. specialize (B2 eq_refl). subst s2.
    exists (with_solver (Some s1) (bs_model st)). split; [|split].
    - exists (m_ops (bs_model st)). split; [apply model_ext; cbn; congruence|]. cbn [with_solver m_infer m_ops]. exact A10.
    - unfold variant. cbn. rewrite E2. cbn. do 8 (split; [assumption|]). split; [congruence|]. auto.
    - assert (EI : initialize X MX (with_solver (Some s1) (bs_model st)) = initialize X MX (with_solver (Some s1) d0)) by reflexivity. rewrite EI. destruct (initialize X MX (with_solver (Some s1) d0)); auto. Qed.
  Lemma bupdate_ok (st : bstate G) p st' : variant d0 (bs_model st) -> bupdate X MX factory st p = (st', Ok tt) -> exists d, with_candidate factory d0 p d.
  Proof. intros HV E. destruct HV as (A1 & A2 & A3 & A4 & A5 & A6 & A7 & A8 & A9 & A10 & A11). unfold bupdate in E. destruct (factory p) as [g|] eqn:Eg; [|discriminate].
    destruct (m_solver (bs_model st)) as [z|] eqn:Ez; [|discriminate]. destruct (m_solver d0) as [s|] eqn:Es; [|discriminate]. cbn [option_map] in A9. injection A9 as A9.
    destruct (bayesian_solver (Some z)) eqn:Eb; cbn [andb] in E.
    - destruct (reg_fits z g) eqn:Ef; [|discriminate]. cbn [negb] in E. destruct (setreg_det z s g A9 Ef) as (B0 & B1 & B2). unfold set_regularizer in E. rewrite Ez in E. destruct (lsq_setreg z g) as [s1 [[]|]] eqn:E1; [|discriminate].
      cbn [snd] in B1. exists (with_solver (Some (fst (lsq_setreg s g))) d0). exists g, s. split; auto. split; auto. split; auto. unfold set_regularizer. rewrite Es. destruct (lsq_setreg s g) as [s2 x2]. cbn [fst snd] in *. congruence.
    - exfalso. unfold set_regularizer in E. rewrite Ez in E. destruct (lsq_setreg z g) as [s1 [[]|]] eqn:E1; [|discriminate].
      assert (Hb : bayesian_solver (Some s1) = false) by (destruct z; cbn in Eb; try discriminate; destruct g; cbn in E1; try destruct (ts_set _ _); cbn in E1; injection E1 as <-; reflexivity).
      assert (Hi : initialize X MX (with_solver (Some s1) (bs_model st)) = Err AttributeError) by (unfold initialize, posterior_of; cbn [with_solver m_solver]; destruct s1; cbn in Hb; try discriminate; reflexivity). rewrite Hi in E. discriminate. Qed.

  Variables (ts : list (sel_test model)) (cs : list (nat * sel_case model)) (N total : nat).
  Definition TS : list (model -> Prop) := map (fun c d' => test_ok d' c) ts.
  Definition CS : list (list model -> R -> Prop) := map (fun kc l x => case_val kc l (F x)) cs.
  Notation succeeds' := (succeeds normal X MX factory d0 TS CS N total).
  Notation fails' := (fails normal X MX factory d0 TS CS N total).
  Lemma acceptable_TS ds e : acceptable TS CS N total ds e <-> exists T Ds xs, ds = concat T ++ concat Ds /\ Forall2 (fun c l => length l = N /\ Forall (fun d' => test_ok d' c) l) ts T /\ length Ds = length xs /\
    Forall2 (pair_ok N) cs (combine Ds xs) /\ e = (lsum xs / INR total)%R.
  Proof. assert (FM : forall A B C (f : A -> B) (P : B -> C -> Prop) l l', Forall2 P (map f l) l' <-> Forall2 (fun a c => P (f a) c) l l').
    { clear. intros A B C f P l. induction l as [|a l IH]; intros [|c l']; cbn; split; intros H; inversion H; subst; constructor; auto; apply IH; auto. }
    unfold acceptable, TS, CS. split; intros (T & Ds & xs & H1 & H2 & H3 & H4 & H5); exists T, Ds, xs; (split; [exact H1|]); (split; [first [apply FM; exact H2|apply FM in H2; exact H2]|]); (split; [exact H3|]); (split; [first [apply FM; exact H4|apply FM in H4; exact H4]|exact H5]). Qed.
  Lemma trial_fwd st p e h' : variant d0 (bs_model st) -> succeeds' p (bs_gen st) e h' ->
    exists st', btraining_error normal X MX factory N ts cs total st p = (st', Ok (F e)).
  Proof. intros HV (d & q & ds & HC & HQ & HS & HA). destruct (candidate_ready p d HC) as (s & HR). destruct (bupdate_is st p d HV HC) as (d1 & Hd1 & _ & EU). unfold initialize in EU. rewrite HQ in EU.
    unfold btraining_error. rewrite EU. cbn [bs_post]. apply acceptable_TS in HA. destruct HA as (T & Ds & xs & -> & HT & HL & HF & ->). destruct (successive_split _ _ _ _ _ _ _ HS) as (k & S1 & S2).
    destruct (test_all_fwd d r m s D Z q HR HQ N ts T _ _ d1 S1 HT Hd1) as (d2 & -> & Hd2). destruct (sum_draws_fwd d r m s D Z q HR HQ N cs Ds xs 0%R _ _ d2 S2 HL HF Hd2) as (d3 & E3 & _).
    rewrite E3. cbn [fdivn]. rewrite fold_plus, Rplus_0_l. eauto. Qed.
  Lemma trial_bwd st p st' v : variant d0 (bs_model st) -> btraining_error normal X MX factory N ts cs total st p = (st', Ok v) ->
    variant d0 (bs_model st') /\ ((exists e, v = F e /\ succeeds' p (bs_gen st) e (bs_gen st')) \/ ~ feasible v /\ fails' p (bs_gen st) (bs_gen st')).
  Proof. intros HV E. assert (E0 := E). unfold btraining_error in E. destruct (bupdate X MX factory st p) as [s1 x1] eqn:EU. destruct x1 as [[]|]; [|discriminate].
    destruct (bupdate_ok st p s1 HV EU) as (d & HC). destruct (candidate_ready p d HC) as (s & HR). destruct (bupdate_is st p d HV HC) as (d1 & Hd1 & HV1 & EU'). rewrite EU in EU'. clear EU.
    assert (HVa : forall d2, akin d d2 -> variant d0 d2).
    { intros d2 (l & -> & Hl). destruct HC as (g & sx & E1 & E2 & E3 & E4). unfold set_regularizer in E4. rewrite E2 in E4. destruct (lsq_setreg sx g) as [sy y] eqn:Ey. injection E4 as <- ->. unfold variant. cbn in *. assert (C0 := setreg_bare sx g E3). rewrite Ey in C0. cbn in C0. rewrite E2. cbn [option_map].
      do 8 (split; [reflexivity|]). split; [congruence|]. split; auto. intros Hi. exfalso. apply (rd_ne _ _ _ _ _ _ _ HR0). assert (Hx := si_intr d0 (rd_i _ _ _ _ _ _ _ HR0)). rewrite Hi in Hx. destruct (m_infer d0); auto. discriminate. }
    assert (Hno : (forall e, v <> F e) -> forall e h2, ~ succeeds' p (bs_gen st) e h2). { intros Hv e h2 HS. destruct (trial_fwd st p e h2 HV HS) as (st2 & E2). rewrite E0 in E2. injection E2 as _ ->. apply (Hv e); auto. }
    unfold initialize in EU'. destruct (posterior_of X MX d) as [q|er] eqn:HQ.
    - injection EU' as ->. cbn [bs_post bs_gen bs_model] in *.
      destruct (test_all normal N ts (Build_bstate d1 (Some q) (bs_gen st))) as [s2 x2] eqn:E2. destruct (test_all_bwd d r m s D Z q HR HQ N ts _ _ _ _ Hd1 E2) as (ds & d2 & h & -> & K1 & K2 & K3).
      destruct x2 as [b|]; [|discriminate]. destruct b.
      2:{ injection E as <- <-. cbn. split; [apply HVa; auto|]. right. split; [cbn; auto|]. split; [apply Hno; discriminate|]. exists d. split; auto. right. eauto. }
      destruct (sum_draws normal N cs (F 0) (Build_bstate d2 (Some q) h)) as [s3 x3] eqn:E3. destruct (sum_draws_bwd d r m s D Z q HR HQ N cs _ _ _ _ _ K2 E3) as (ds' & d3 & h' & -> & L1 & L2 & L3).
      assert (HSu : successive normal d q (bs_gen st) (ds ++ ds') h') by (eapply successive_app; eauto).
      assert (Hbad : (forall e, v <> F e) -> st' = Build_bstate d3 (Some q) h' -> ~ feasible v -> variant d0 (bs_model st') /\ ((exists e, v = F e /\ succeeds' p (bs_gen st) e (bs_gen st')) \/ ~ feasible v /\ fails' p (bs_gen st) (bs_gen st'))).
      { intros H1 -> H2. split; [apply HVa; auto|]. right. split; auto. split; [apply Hno; auto|]. exists d. split; auto. right. cbn. eauto. }
      destruct x3 as [[w|]|]; [| |discriminate].
      + injection E as <- <-. destruct w as [w| | |]; try (apply Hbad; cbn; auto; discriminate). split; [apply HVa; auto|]. left. cbn [fdivn]. exists (w / INR total)%R. split; auto. destruct (K3 eq_refl) as (T & -> & HT). destruct (L3 w eq_refl) as (e & Ds & xs & [= <-] & -> & HL & HF & Ew).
        exists d, q, (concat T ++ concat Ds). split; auto. split; auto. split; auto. apply acceptable_TS. exists T, Ds, xs. split; auto. split; auto. split; auto. split; auto. rewrite Ew, fold_plus, Rplus_0_l. auto.
      + injection E as <- <-. apply Hbad; cbn; auto; discriminate.
    - assert (Her : er = LinAlgError /\ s1 = Build_bstate d1 None (bs_gen st)) by (destruct er; try discriminate; split; congruence). destruct Her as (-> & ->). cbn [bs_post] in E. injection E as <- <-. cbn. split; auto. right. split; [cbn; auto|]. split; [apply Hno; discriminate|]. exists d. auto. Qed.
  Definition verdict (c : bstate G * param * res fnum) : param * option R := (cl_param c, match snd c with Ok (F e) => Some e | _ => None end).
  Lemma calls_trials st L st' : calls (btraining_error normal X MX factory N ts cs total) st L st' -> variant d0 (bs_model st) -> (forall x, In x L -> exists u, snd x = Ok u) ->
    variant d0 (bs_model st') /\ trials normal X MX factory d0 TS CS N total (bs_gen st) (map verdict L) (bs_gen st') /\
    forall p sp v, In (sp, p, Ok v) L -> feasible v -> exists e, v = F e.
  Proof. induction 1 as [st|st p y s1 L st' E H IH]; intros HV HL. { split; auto. split; [constructor|]. intros p sp v []. }
    destruct (HL (st, p, y) (or_introl eq_refl)) as (v & Ev). cbn in Ev. subst y. destruct (trial_bwd st p s1 v HV E) as (HV1 & Hc). destruct (IH HV1 (fun x Hx => HL x (or_intror Hx))) as (K1 & K2 & K3). split; auto.
    destruct Hc as [(e & -> & HS)|(Hf & HF)]; cbn [map]; split.
    - eapply tr_ok; eauto.
    - intros p' sp v' [Hin|Hin] Hv; [injection Hin as _ _ <-; eauto|eauto].
    - replace (verdict (st, p, Ok v)) with (p, @None R) by (unfold verdict, cl_param; cbn; destruct v; cbn in Hf; tauto). eapply tr_no; eauto.
    - intros p' sp v' [Hin|Hin] Hv; [injection Hin as _ _ ->; contradiction|eauto]. Qed.
  Lemma trials_in L : forall h h' p e, trials normal X MX factory d0 TS CS N total h L h' -> In (p, Some e) L -> exists h1 h2, succeeds' p h1 e h2.
  Proof. intros h h' p e H. induction H as [h|h p' e' h1 L h' HS H IH|h p' h1 L h' HF H IH]; intros Hin; [destruct Hin| |]; destruct Hin as [Hin|Hin]; auto; [injection Hin as <- <-; eauto|discriminate]. Qed.
  Theorem bselect_ok bounded nm only c po g st' : (forall a b, honest [] (bounded a b)) -> (forall x, honest [] (nm x)) ->
    bselect normal X MX factory bounded nm only c N ts cs total (Build_bstate d0 po g) = (st', Ok tt) ->
    exists L1 L2 p e d q, trials normal X MX factory d0 TS CS N total g (L1 ++ L2) (bs_gen st') /\ Permutation (points c) (map fst L1) /\ (only = true -> L2 = []) /\
      In (p, Some e) (L1 ++ L2) /\ (forall p' e', In (p', Some e') L1 -> (e <= e')%R) /\
      with_candidate factory d0 p d /\ posterior_of X MX d = Ok q /\ bs_post st' = Some q /\ akin d (bs_model st').
  Proof. intros Hb Hn E. unfold bselect in E. destruct (gridsearch _ bounded nm only c (Build_bstate d0 po g)) as [s1 [p|]] eqn:EG; [|discriminate].
    destruct (search_calls _ bounded nm only c _ _ p Hb Hn EG) as (L1 & L2 & sp & v & HC & HP & HO & HL & Hin & Hf & Hmin). destruct (calls_trials _ _ _ HC (variant_refl d0) HL) as (HV & HT & HFin). destruct (HFin p sp v Hin Hf) as (e & ->).
    rewrite map_app in HT. assert (Hpin : In (p, Some e) (map verdict L1 ++ map verdict L2)) by (rewrite <- map_app; apply in_map_iff; exists (sp, p, Ok (F e)); auto).
    destruct (trials_in _ _ _ _ _ HT Hpin) as (h1 & h2 & d & q & ds & HCd & HQ & _). destruct (bupdate_is s1 p d HV HCd) as (d1 & Hd1 & _ & EU). unfold initialize in EU. rewrite HQ in EU. rewrite E in EU. injection EU as ->. cbn [bs_gen bs_post bs_model].
    exists (map verdict L1), (map verdict L2), p, e, d, q. split; auto. split. { rewrite map_map. exact HP. } split; [intros Ho; rewrite (HO Ho); auto|]. split; auto. split; [|auto 8].
    intros p' e' Hp'. apply in_map_iff in Hp'. destruct Hp' as ([[s2 p2] y2] & Ey & Hy). unfold verdict, cl_param in Ey. cbn in Ey. injection Ey as -> Ey. destruct y2 as [[x| | |]|]; try discriminate. injection Ey as ->. specialize (Hmin _ _ Hy eq_refl). cbn in Hmin. destruct (Rlt_dec e' e); [discriminate|lra]. Qed.
End Trial.

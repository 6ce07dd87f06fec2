(* RomRun.v -- time-continuous training data and predictions (C52). *)
From Verif Require Import LinAlg MatAlg BlockAlg PreProofs PreLocs PreFinal MonoPredict MonoStmts AffProofs BasisProofs BasisMultiProofs SpecRom RomParts RomProofs RomLift RomFit.
From Coq Require Import Lra Lia Psatz ZArith.
#[local] Open Scope nat_scope.

Lemma maps_columnwise_r n m f g : maps n m f g -> columnwise n m g.
Proof.
  intros (_ & T & HR) k a Ha b E. destruct (T k a Ha) as (b' & E' & Sb & Kb). rewrite E' in E. injection E as <-. split; auto. split; auto. intros j Hj.
  destruct (T 1 (V (col n a j)) (shaped_col n a j)) as (c & Ec & Sc & Kc). rewrite Ec. f_equal.
  apply (aget_ext m 1); auto. { apply shaped_col. }
  intros p i Hp Hi. assert (i = 0) by lia. subst i. destruct (HR p Hp) as (phi & phi' & HA & _ & H1). rewrite (H1 1 _ _ (shaped_col n a j) Ec 0 Hi). cbn [aget]. rewrite vget_col by auto.
  rewrite (H1 k a _ Ha E' j Hj). apply HA. intros l Hl. now rewrite vget_col.
Qed.
Lemma via_opt {T} (x : option T) (f : T -> arr -> res arr) a b : via x f a b <-> opt_call x f a = Ok b.
Proof. destruct x; cbn; [tauto|]. split; congruence. Qed.
Lemma encode_ddts_columns n0 n r k P a d q z : trained_parts n r P -> columnwise_lifter n0 n (rp_lift P) -> columnwise_ddts n0 n (rp_lift P) -> shaped n0 k a -> shaped n0 k d -> same_kind a d ->
  encode P true a (Some d) = Ok (q, Some z) -> shaped r k q /\ same_kind a q /\ shaped r k z /\ same_kind a z /\
  forall j, j < k -> encode P true (V (col n0 a j)) (Some (V (col n0 d j))) = Ok (V (col r q j), Some (V (col r z j))).
Proof.
  intros HP HL HD Ha Hd K E. apply encode_continuous in E. destruct E as (z' & dl & dt & Ez & E1 & V1 & V2 & V3). injection Ez as <-.
  destruct (encode_columns n0 n r P HP HL k a Ha q E1) as (Sq & Kq & Cq).
  assert (H1 : shaped n k dl /\ same_kind a dl /\ forall j, j < k -> via (rp_lift P) (fun f => lf_ddts f (V (col n0 a j))) (V (col n0 d j)) (V (col n dl j))).
  { destruct (rp_lift P) as [f|]; cbn [via columnwise_ddts] in *. - now apply HD. - subst dl n. auto. }
  destruct H1 as (S1 & K1 & C1). apply via_opt in V2, V3.
  destruct (maps_columnwise_r n n _ _ (maps_tf n r P HP) k dl S1 dt V2) as (S2 & K2 & C2). destruct (maps_columnwise n r _ _ (maps_basis n r P HP) k dt S2 z V3) as (S3 & K3 & C3).
  split; auto. split; auto. split; auto. split. { eapply same_kind_trans; [exact K1|]. eapply same_kind_trans; eauto. }
  intros j Hj. apply encode_continuous. exists (V (col r z j)), (V (col n dl j)), (V (col n dt j)). split; auto. split; auto. split; auto. split; apply via_opt; auto.
Qed.
(* time-continuous models with derivatives given *)
Lemma continuous_training LX r T ft fb r' Qs Zs Us n0 n p ks : rm_cont r = true -> trajectories_of T (map M Qs) (Some (map M Zs)) Us -> same_length (map M Qs) Us ->
  rom_fit LX r T ft fb = (r', Ok tt) -> trajectories n0 ks Qs -> blocks n0 ks Zs -> 0 < n0 -> 0 < p -> trained_parts n p (rm_parts r') ->
  columnwise_lifter n0 n (rp_lift (rm_parts r')) -> columnwise_ddts n0 n (rp_lift (rm_parts r')) ->
  exists A D U, model_fit LX (rm_model r) (M A) (M D) U = (rm_model r', Ok tt) /\ is_mat p (lsumn ks) A /\ is_mat p (lsumn ks) D /\
    (forall t j, t < length Qs -> j < nth t ks 0 ->
       encode (rm_parts r') true (V (colv n0 (nth t Qs []) j)) (Some (V (colv n0 (nth t Zs []) j))) =
         Ok (V (colv p A (lsumn (firstn t ks) + j)), Some (V (colv p D (lsumn (firstn t ks) + j))))) /\
    (Us = None -> U = None) /\
    (forall us m, Us = Some (map M us) -> 0 < m -> blocks m ks us -> exists u, U = Some (M u) /\ is_mat m (lsumn ks) u /\
       forall t j, t < length Qs -> j < nth t ks 0 -> colv m u (lsumn (firstn t ks) + j) = colv m (nth t us []) j).
Proof.
  intros HD HT HU E HQ HZ Hn0 Hp HP HC HCd. destruct HQ as (HB & Hk & Hne). pose proof (F2_length _ _ _ HB) as HLk. pose proof (F2_length _ _ _ HZ) as HLz.
  destruct (rom_fit_ok LX r T ft fb r' _ _ Us HT) as (es & ds & us & Q & L & U & F & (L1 & L2 & N3 & L3 & HI) & S1 & S2 & S3 & EF & _); auto. { intros l El. injection El as <-. rewrite !map_length. lia. }
  rewrite HD in HI. rewrite map_length in *.
  assert (HE : forall i, i < length Qs -> exists ED : mat * mat, nth i es dfl = M (fst ED) /\ nth i ds dfl = M (snd ED) /\ is_mat p (nth i ks 0) (fst ED) /\ is_mat p (nth i ks 0) (snd ED) /\ nth_opt us i = nth_opt Us i /\
    forall j, j < nth i ks 0 -> encode (rm_parts r') true (V (colv n0 (nth i Qs []) j)) (Some (V (colv n0 (nth i Zs []) j))) = Ok (V (colv p (fst ED) j), Some (V (colv p (snd ED) j)))).
  { intros i Hi. specialize (HI i Hi). cbn [nth_opt option_map contributes] in HI. rewrite (nth_map_in _ Qs i dfl []) in HI by auto. rewrite (nth_map_in _ Zs i dfl []) in HI by lia. destruct HI as [Ec Eu].
    assert (HM : is_mat n0 (nth i ks 0) (nth i Qs [])) by (apply (Forall2_nth_iff (fun c M => is_mat n0 c M) ks Qs 0 []); auto; lia).
    assert (HM2 : is_mat n0 (nth i ks 0) (nth i Zs [])) by (apply (Forall2_nth_iff (fun c M => is_mat n0 c M) ks Zs 0 []); auto; lia).
    destruct (encode_ddts_columns n0 n p (nth i ks 0) _ (M (nth i Qs [])) (M (nth i Zs [])) _ _ HP HC HCd HM HM2 I Ec) as (A1 & A2 & A3 & A4 & A5).
    destruct (nth i es dfl) as [|Ei]; [destruct A2|]. destruct (nth i ds dfl) as [|Di]; [destruct A4|]. exists (Ei, Di). cbn [fst snd]. repeat (split; [easy|]). exact A5. }
  destruct (finite_choice ([], []) (length Qs) _ HE) as [G HG]. clear HE HI.
  set (Es := map (fun i => fst (G i)) (seq 0 (length Qs))). set (Ds := map (fun i => snd (G i)) (seq 0 (length Qs))).
  assert (LE : length Es = length Qs) by (unfold Es; now rewrite map_length, seq_length). assert (LD : length Ds = length Qs) by (unfold Ds; now rewrite map_length, seq_length).
  assert (NE : forall i, i < length Qs -> nth i Es [] = fst (G i)). { intros i Hi. unfold Es. rewrite (nth_map_in _ (seq 0 (length Qs)) i [] 0) by (rewrite seq_length; auto). now rewrite seq_nth. }
  assert (ND : forall i, i < length Qs -> nth i Ds [] = snd (G i)). { intros i Hi. unfold Ds. rewrite (nth_map_in _ (seq 0 (length Qs)) i [] 0) by (rewrite seq_length; auto). now rewrite seq_nth. }
  assert (Ees : es = map M Es). { apply (nth_ext _ _ dfl dfl); rewrite ?map_length; [lia|]. intros i Hi. rewrite (nth_map_in _ Es i dfl []) by lia. rewrite NE by lia. apply HG. lia. }
  assert (Eds : ds = map M Ds). { apply (nth_ext _ _ dfl dfl); rewrite ?map_length; [lia|]. intros i Hi. rewrite (nth_map_in _ Ds i dfl []) by lia. rewrite ND by lia. apply HG. lia. }
  assert (BE : blocks p ks Es). { apply (index_Forall2 _ 0 []); [lia|]. intros i Hi. rewrite NE by lia. apply HG. lia. }
  assert (BD : blocks p ks Ds). { apply (index_Forall2 _ 0 []); [lia|]. intros i Hi. rewrite ND by lia. apply HG. lia. }
  assert (HneE : Es <> []) by (destruct Es, Qs; cbn in *; congruence). assert (HneD : Ds <> []) by (destruct Ds, Qs; cbn in *; congruence).
  rewrite Ees in S1. rewrite Eds in S2. destruct (stacked_columns p ks Es Q Hp HneE BE S1) as (A & -> & HA & CA). destruct (stacked_columns p ks Ds L Hp HneD BD S2) as (D & -> & HDm & CD).
  exists A, D, U. split; auto. split; auto. split; auto. split; [|split].
  - intros t j Ht Hj. rewrite <- !(col_colv p). rewrite CA, CD by lia. rewrite NE, ND by auto. rewrite !col_colv. now apply HG.
  - intros ->. assert (us = None) by now apply N3. subst us. now injection S3 as <-.
  - intros ul m -> Hm HBu. pose proof (F2_length _ _ _ HBu) as HLu. destruct us as [ul'|]; [|destruct N3 as [N3 _]; specialize (N3 eq_refl); discriminate]. cbn [hstack_opt] in S3. destruct (hstack_arr ul') as [UU|] eqn:EU; [|discriminate]. injection S3 as <-.
    specialize (L3 ul' eq_refl). assert (Eul : ul' = map M ul).
    { apply (nth_ext _ _ dfl dfl); rewrite ?map_length; [lia|]. intros i Hi. destruct (HG i ltac:(lia)) as (_ & _ & _ & _ & HH & _). cbn [nth_opt option_map] in HH. now injection HH as HH. }
    rewrite Eul in EU. assert (Hneu : ul <> []) by (destruct ul, Qs; cbn in *; try congruence; lia).
    destruct (stacked_columns m ks ul UU Hm Hneu HBu EU) as (u & -> & Hu & Cu). exists u. split; auto. split; auto. intros t j Ht Hj. rewrite <- !(col_colv m). apply Cu; lia.
Qed.
(* predictions *)
Lemma predict_ok X r p n0 n q0 e N inputs : SpecMono.trained X (rm_model r) p -> trained_parts n p (rm_parts r) -> columnwise_lifter n0 n (rp_lift (rm_parts r)) ->
  is_vec n0 q0 -> enough_inputs (rm_model r) inputs N -> 1 <= N -> encode1 (rm_parts r) (V q0) = Ok e ->
  exists A, is_mat p N A /\ e = V (colv p A 0) /\
    (forall j, j + 1 < N -> rhs (rm_model r) (V (colv p A j)) (step_input (rm_model r) inputs j) = Ok (V (colv p A (j + 1)))) /\
    rom_predict r (V q0) (Z.of_nat N) inputs = decode (rm_parts r) (M A) None /\
    forall Y, decode (rm_parts r) (M A) None = Ok Y -> exists Q, Y = M Q /\ is_mat n0 N Q /\ forall j, j < N -> decode (rm_parts r) (V (colv p A j)) None = Ok (V (colv n0 Q j)).
Proof.
  intros HT HP HL Hq Hin HN E. destruct (encode_columns n0 n p _ HP HL 1 (V q0)) with (b := e) as (Se & Ke & _); auto. { split; auto. }
  destruct e as [s|]; [|destruct Ke]. destruct Se as [Hs _]. destruct (C30_rec X _ p s N inputs HT Hs Hin HN) as (A & E2 & HA & H0 & Hrec). exists A. split; auto. split; [now rewrite H0|]. split; auto. split.
  { unfold rom_predict, rom_predict_with. rewrite E. cbn [bind]. rewrite E2. reflexivity. }
  intros Y EY. destruct (decode_columns n0 n p _ HP HL N (M A) HA Y EY) as (SY & KY & CY). destruct Y as [|Q]; [destruct KY|]. exists Q. split; auto.
Qed.
Lemma predict_refuses r q0 N inputs e : encode1 (rm_parts r) q0 = Err e -> rom_predict r q0 N inputs = Err e.
Proof. intros E. unfold rom_predict, rom_predict_with. now rewrite E. Qed.
Lemma prom_predict_ok r mu q0 N inputs d : snd (pevaluate (pa_base (pr_model r)) mu) = Ok d ->
  prom_predict r mu q0 N inputs = rom_predict {| rm_parts := pr_parts r; rm_ddt := pr_ddt r; rm_model := d |} q0 N inputs.
Proof. intros E. unfold prom_predict, rom_predict, rom_predict_with, ppredict. cbn [rm_parts rm_model]. destruct (encode1 (pr_parts r) q0); cbn [bind]; auto. now rewrite E. Qed.
Lemma prom_fit_ok PX r mus Qs Zs Us ft fb r' : same_length Qs Zs -> same_length Qs Us -> prom_fit PX r mus Qs Zs Us ft fb = (r', Ok tt) ->
  exists es ds us, fitted_on ft fb Qs (pr_parts r) (pr_parts r') /\ contributions (pr_parts r') (pr_ddt r) (pr_cont r) Qs Zs Us es ds us /\
    pmodel_fit PX (pr_model r) mus es ds us = (pr_model r', Ok tt) /\ pr_ddt r' = pr_ddt r.
Proof.
  intros HZ HU E. unfold prom_fit in E. destruct (do _ <- check_fit_args _ _ _ _ _; _) as [[P [[qs zs] us]]|e] eqn:E1; [|discriminate].
  destruct (check_fit_args _ _ _ _ _) as [[]|]; [|discriminate]. cbn [bind] in E1. destruct (process_ok _ _ _ _ _ _ _ _ _ _ _ _ HZ HU E1) as [F C].
  destruct (pmodel_fit PX (pr_model r) mus qs zs us) as [d' x] eqn:E4. inversion E; subst r' x; clear E. exists qs, zs, us. auto.
Qed.
Lemma steady_fit LX r T ft fb : m_kind (rm_model r) = KSteady -> exists e, snd (rom_fit LX r T ft fb) = Err e.
Proof.
  intros HK. unfold rom_fit, rom_fit_with. destruct (do _ <- check_fit_args _ _ _ _ _; _) as [[P [[qs zs] us]]|e] eqn:E1; [|now exists e].
  destruct (do U <- hstack_opt us; _) as [[[Q L] U]|e] eqn:E3; [|now exists e]. unfold model_fit. rewrite HK. now exists TypeError.
Qed.
Lemma ddts_columnwise n ns f : ns <> [] -> Forall (lt 0) ns -> (forall k a d, shaped n k a -> shaped n k d -> same_kind a d -> lf_ddts f a d = lf_ddts (poly_lifter (map INR ns)) a d) -> columnwise_ddts n (length ns * n) (Some f).
Proof.
  intros Hne Hp Hf k a d Ha Hd K e E. rewrite (Hf k a d Ha Hd K) in E. destruct (poly_ddts_form n k ns a d Hne Hp Ha Hd K) as (L & EL & SL & KL & G). rewrite EL in E. injection E as <-. split; auto. split; auto. intros j Hj.
  pose proof (shaped_col n a j) as Sc. pose proof (shaped_col n d j) as Sd. assert (K1 : same_kind (V (col n a j)) (V (col n d j))) by exact I. rewrite (Hf 1 _ _ Sc Sd K1). destruct (poly_ddts_form n 1 ns _ _ Hne Hp Sc Sd K1) as (L2 & E2 & S2 & K2 & G2). rewrite E2. f_equal.
  apply (aget_ext (length ns * n) 1); auto. { apply shaped_col. } 
  intros p l Hpl Hl. assert (Hn : 0 < n) by lia. set (c := p / n). set (i := p mod n).
  assert (Epq : p = c * n + i) by (unfold c, i; rewrite Nat.mul_comm; apply Nat.div_mod; lia). assert (Hi : i < n) by (apply Nat.mod_upper_bound; lia).
  assert (Hc : c < length ns) by (apply Nat.div_lt_upper_bound; lia). cbn [aget]. rewrite vget_col by auto. rewrite Epq, G2, G by auto. cbn [aget]. now rewrite !vget_col.
Qed.
Lemma poly_ddts_columns n ns : ns <> [] -> Forall (lt 0) ns -> columnwise_ddts n (length ns * n) (Some (poly_lifter (map INR ns))).
Proof. intros H1 H2. apply ddts_columnwise; auto. Qed.
Lemma quad_ddts_columns n : columnwise_ddts n (2 * n) (Some quad_lifter).
Proof. apply (ddts_columnwise n [1; 2]); [discriminate|repeat constructor|]. intros k a d Ha Hd K. now apply (quad_ddts_form n k). Qed.

(* ParaOps.v -- giving entries to one operator of a parametric model. *)
From Coq Require Import ZArith Permutation.
From Verif Require Import LinAlg MatAlg OpsProofs BlockAlg SolverReg SolverCond AffProofs InterpProofs.
From Verif Require Export ParaInv.
From Verif Require Export SpecPara.
#[local] Open Scope nat_scope.

(* the parameters as an interpolated operator stores them *)
Definition tparams (mus : list pval) : list pval := match mus with [] => [] | p0 :: _ => if plen p0 =? 1 then map (fun p => PS (unscalar p)) mus else mus end.
Definition uniform (p : nat) (mus : list pval) : Prop := (forall mu, In mu mus -> plen mu = p) /\ exists n, forall mu, In mu mus -> pndim mu = n.
Lemma NoDup_map_in {A B} (f : A -> B) l : (forall x y, In x l -> In y l -> f x = f y -> x = y) -> NoDup l -> NoDup (map f l).
Proof. intros Hf HN. induction HN as [|a l Ha HN IH]; cbn; constructor.
  - intros K. apply in_map_iff in K. destruct K as (b & E & Hb). apply Ha. rewrite <- (Hf b a); auto; [right; auto|left; auto].
  - apply IH. intros; apply Hf; auto; right; auto. Qed.
Lemma tparams_length mus : length (tparams mus) = length mus.
Proof. destruct mus as [|p0 t]; auto. unfold tparams. destruct (plen p0 =? 1); auto. apply map_length. Qed.
Lemma tparams_eq p mus : uniform p mus -> tparams mus = if p =? 1 then map (fun p => PS (unscalar p)) mus else mus.
Proof. intros [H _]. destruct mus as [|p0 t]; [destruct (p =? 1); reflexivity|]. unfold tparams. rewrite (H p0) by (left; auto). reflexivity. Qed.
Lemma tparams_nth p mus b : uniform p mus -> b < length mus -> nth b (tparams mus) (PS 0) = if p =? 1 then PS (unscalar (nth b mus (PS 0))) else nth b mus (PS 0).
Proof. intros H Hb. rewrite (tparams_eq p) by auto. destruct (p =? 1); auto. rewrite (nth_map_in _ _ _ _ (PS 0)) by auto. reflexivity. Qed.
Lemma tparams_nodup p mus : uniform p mus -> NoDup mus -> NoDup (tparams mus).
Proof. intros H HN. rewrite (tparams_eq p) by auto. destruct (Nat.eqb_spec p 1) as [->|]; auto. apply NoDup_map_in; auto. destruct H as [H1 [n H2]].
  intros x y Hx Hy E. assert (Lx := H1 x Hx). assert (Ly := H1 y Hy). assert (Nx := H2 x Hx). assert (Ny := H2 y Hy). injection E as E. subst n.
  destruct x as [x|vx], y as [y|vy]; cbn in *; try discriminate; [congruence|]. destruct vx as [|a [|? ?]], vy as [|b [|? ?]]; try discriminate. cbn in E. congruence. Qed.

(* a matrix as a row of n blocks *)
Lemma split_blocks r w n : forall E, 0 < r -> 0 < n -> is_mat r (n * w) E -> exists Es, length Es = n /\ blocks r (map (fun _ => w) Es) Es /\ hstack Es = E.
Proof. induction n as [|n IH]; intros E Hr Hn HE; [lia|]. destruct n as [|n].
  - exists [E]. split; auto. split; [|reflexivity]. constructor; [|constructor]. replace w with (1 * w) by lia. auto.
  - assert (HL : S (S n) * w = w + S n * w) by lia. rewrite HL in HE.
    assert (H1 := is_mat_mcols r _ 0 w E HE ltac:(lia) ltac:(lia)). rewrite Nat.sub_0_r in H1.
    assert (H2 := is_mat_mcols r _ w (w + S n * w) E HE ltac:(lia) ltac:(lia)). replace (w + S n * w - w) with (S n * w) in H2 by lia.
    destruct (IH _ Hr ltac:(lia) H2) as (Es & L & HB & HS). exists (mcols 0 w E :: Es). split; [cbn; lia|]. split; [constructor; auto|].
    assert (Hne : Es <> []) by (intros ->; discriminate). rewrite (hstack_step r w (map (fun _ => w) Es)) by auto. rewrite HS. rewrite (hcat_mcols r (w + S n * w)) by (auto; lia).
    apply (mcols_all r). auto. Qed.
Lemma split_family r m c n E : 0 < r -> 0 < n -> is_mat r (n * opdim (proto c) r m) E -> exists ops, length ops = n /\ family r m c ops /\ hstack (map entries2 ops) = E.
Proof. intros Hr Hn HE. destruct (split_blocks r _ n E Hr Hn HE) as (Es & L & HB & HS).
  assert (G : exists ops, family r m c ops /\ map entries2 ops = Es).
  { clear - Hr HB. induction Es as [|E Es IH]; [exists []; split; [constructor|reflexivity]|]. inversion HB as [|? ? ? ? H1 H2]; subst.
    destruct (IH H2) as (ops & HF & HE). destruct (construct_ok c r m E Hr H1) as (o & _ & Hw & Hc & Ho). exists (o :: ops). split; [constructor; auto|]. cbn. congruence. }
  destruct G as (ops & HF & HEs). exists ops. rewrite HEs. split; [|auto]. rewrite <- L, <- HEs, map_length. auto. Qed.

(* ---- an operator that fit() has prepared ------------------------------------------------------------------------------------ *)
Definition readyi (p : nat) (mus : list pval) (o : pop) : Prop :=
  match o with
  | PMono _ => True
  | PAff a => 0 < a_nterms a /\ Forall (good_param a) mus
  | PItp t => i_params t = Some (tparams mus) /\ i_pdim t = Some p /\ (forall C, i_iclass t = Some C -> faithful C)
  end.
(* what version() and the data block depend on *)
Definition vequiv (o o' : pop) : Prop :=
  match o, o' with
  | PMono o, PMono o' => mo_cls o' = mo_cls o
  | PAff a, PAff a' => a_cls a' = a_cls a /\ a_theta a' = a_theta a /\ a_nterms a' = a_nterms a /\ a_pdim a' = a_pdim a
  | PItp t, PItp t' => i_cls t' = i_cls t
  | _, _ => False
  end.
Lemma vequiv_refl o : vequiv o o. Proof. destruct o; cbn; auto. Qed.
Lemma vequiv_version r m mus o o' v : vequiv o o' -> version r m mus o v <-> version r m mus o' v.
Proof. destruct o, o'; cbn [vequiv]; try tauto; destruct v; cbn [version]; try tauto.
  - intros ->. tauto.
  - intros (-> & -> & -> & ->). tauto.
  - intros ->. tauto. Qed.
Lemma vequiv_pw r m s o o' : vequiv o o' -> pw r m s o' = pw r m s o.
Proof. destruct o, o'; cbn; try tauto; [intros ->; auto|intros (H1 & H2 & H3 & _)|intros ->; auto]. unfold aff_opdim. rewrite H1, H3. auto. Qed.
Lemma vequiv_cls o o' : vequiv o o' -> pcls o' = pcls o. Proof. destruct o, o'; cbn; tauto. Qed.
Lemma vequiv_blockspec r m mus ks Qs Us o o' B : vequiv o o' -> blockspec r m mus ks Qs Us o B -> blockspec r m mus ks Qs Us o' B.
Proof. intros HV [H1 H2]. assert (Hw := vequiv_pw r m (length mus) o o' HV). assert (Hc := vequiv_cls o o' HV). split; rewrite Hw; auto. intros v Hv. apply (vequiv_version r m mus o o' v HV) in Hv.
  destruct (H2 v Hv) as [G1 G2]. split; auto. intros b Hb. destruct (G2 b Hb) as (e & A1 & A2 & A3 & A4). exists e. rewrite Hc. auto. Qed.
Lemma pw_pos r m p mus o : 0 < r -> 0 < m -> mus <> [] -> readyi p mus o -> 0 < pw r m (length mus) o.
Proof. intros Hr Hm Hne H. assert (HD : forall c, 0 < opdim (proto c) r m) by (intros c; apply op_dim_pos; auto). destruct o as [o|a|t]; cbn in *; auto.
  - unfold aff_opdim. specialize (HD (a_cls a)). destruct H as [H _]. nia.
  - unfold i_opdim. specialize (HD (i_cls t)). destruct mus; [congruence|cbn [length]; nia]. Qed.

(* ---- interpolated operators --------------------------------------------------------------------------------------------------- *)
Lemma faithful_sorted C xs es f : faithful C -> NoDup (map PS xs) -> length es = length xs -> C (take_at (PS 0) (map PS xs) (argsort xs)) (take_at [] es (argsort xs)) = Ok f ->
  (forall b, b < length xs -> f (nth b (map PS xs) (PS 0)) = Ok (nth b es [])) /\ (forall r c p E, Forall (is_mat r c) es -> f p = Ok E -> is_mat r c E).
Proof. intros HC HN HL E. assert (Hlt : forall i, In i (argsort xs) -> i < length xs). { intros i Hi. apply (Permutation_in _ (argsort_perm xs)) in Hi. apply in_seq in Hi. lia. }
  assert (HLL : length (take_at [] es (argsort xs)) = length (take_at (PS 0) (map PS xs) (argsort xs))) by (unfold take_at; rewrite !map_length; auto).
  destruct (HC _ _ f HLL E) as [H1 H2].
  split.
  - intros b Hb. destruct (argsort_onto xs b Hb) as (k & Hk & <-). specialize (H1 ltac:(
      unfold take_at; apply NoDup_map_in; [|eapply Permutation_NoDup; [apply Permutation_sym, argsort_perm|apply seq_NoDup]];
      intros x y Hx Hy E0; apply (proj1 (NoDup_nth (map PS xs) (PS 0)) HN); rewrite ?map_length; auto)).
    specialize (H1 k). unfold take_at in H1. rewrite map_length, argsort_length in H1. specialize (H1 Hk).
    rewrite !(nth_map_in _ (argsort xs) k _ 0) in H1 by (rewrite argsort_length; auto). exact H1.
  - intros r c p E0 HF Ef. apply (H2 r c p E0); auto. unfold take_at. rewrite Forall_map, Forall_forall. intros i Hi. rewrite Forall_forall in HF. apply HF. apply nth_In. rewrite HL. auto. Qed.

Lemma i_set_faithful X r m p mus t ops t' x : pext_ok X -> 0 < r -> uniform p mus -> NoDup mus -> readyi p mus (PItp t) -> family r m (i_cls t) ops -> length ops = length mus -> mus <> [] ->
  i_set (px_cubic X) (px_linnd X) t (map entries2 ops) = (t', x) ->
  i_cls t' = i_cls t /\ icls_from X t t' /\ readyi p mus (PItp t') /\ i_entries t' = Some ops /\
  (x = Ok tt -> version r m mus (PItp t) (PItp t') /\ psized r m (PItp t')).
Proof. intros (_ & FC & FL) Hr HU HN (Hp & Hd & Hf) HF HL Hne E. unfold i_set in E. rewrite Hp in E. rewrite (family_shapes r m (i_cls t)) in E by auto.
  rewrite map_length, tparams_length, HL, Nat.eqb_refl in E. cbn [negb] in E. rewrite (family_construct r m) in E by auto.
  unfold i_set_interp in E. cbn [i_entries i_params] in E.
  assert (HM : Forall (is_mat r (opdim (proto (i_cls t)) r m)) (map entries2 ops)) by (apply family_mats; auto).
  assert (HNt := tparams_nodup p mus HU HN). assert (HLt := tparams_length mus).
  assert (DONE : forall C f, C = px_cubic X \/ C = px_linnd X \/ i_iclass t = Some C -> 
     (forall b, b < length mus -> f (nth b (tparams mus) (PS 0)) = Ok (nth b (map entries2 ops) [])) -> (forall p E, f p = Ok E -> is_mat r (opdim (proto (i_cls t)) r m) E) ->
     ({| i_cls := i_cls t; i_pdim := i_pdim t; i_params := Some (tparams mus); i_entries := Some ops; i_interp := Some f; i_iclass := Some C |}, Ok tt) = (t', x) ->
     i_cls t' = i_cls t /\ icls_from X t t' /\ readyi p mus (PItp t') /\ i_entries t' = Some ops /\ (x = Ok tt -> version r m mus (PItp t) (PItp t') /\ psized r m (PItp t'))).
  { intros C f HC HV HS K. injection K as <- <-. cbn [i_cls i_entries]. split; auto. split. { intros C' [= <-]. tauto. }
    split. { split; auto. split; auto. intros C' [= <-]. destruct HC as [->|[->|HC]]; auto. }
    split; auto. intros _. split.
    - split; auto. exists ops. split; auto. split; auto. split; auto. intros b Hb. unfold i_evaluate. cbn [i_entries i_interp i_pdim i_cls]. rewrite Hd.
      destruct HU as [HU1 HU2]. rewrite (HU1 (nth b mus (PS 0))) by (apply nth_In; auto). rewrite Nat.eqb_refl. cbn [negb].
      rewrite <- (tparams_nth p) by (auto; split; auto). rewrite HV by auto. cbn [bind].
      change (@nil (list R)) with (entries2 (OConst [])). rewrite map_nth. unfold family in HF. rewrite Forall_forall in HF. destruct (HF (nth b ops (OConst []))) as [Hw Hc]; [apply nth_In; lia|].
      rewrite <- Hc. apply (construct_id r m); auto.
    - exists ops, f. split; auto. split. { intros ->. destruct mus; [congruence|discriminate]. } split; auto. split; auto. intros p0 E0. rewrite <- opdim_width. apply HS. }
  assert (FAIL : forall e, ({| i_cls := i_cls t; i_pdim := i_pdim t; i_params := i_params t; i_entries := Some ops; i_interp := i_interp t; i_iclass := i_iclass t |}, Err e) = (t', x) ->
     i_cls t' = i_cls t /\ icls_from X t t' /\ readyi p mus (PItp t') /\ i_entries t' = Some ops /\ (x = Ok tt -> version r m mus (PItp t) (PItp t') /\ psized r m (PItp t'))).
  { intros e K. injection K as <- <-. cbn. split; auto. split; [intros C; auto|]. split; [auto|]. split; auto. discriminate. }
  destruct (i_iclass t) as [C|] eqn:EC.
  - rewrite <- EC in FAIL. destruct (C (tparams mus) (map entries2 ops)) as [f|e] eqn:Ef; [|eapply FAIL; eauto; rewrite <- E, <- EC, Hp; reflexivity].
    destruct (Hf C eq_refl (tparams mus) (map entries2 ops) f) as [G1 G2]; [rewrite map_length; lia|auto|].
    apply (DONE C f); [auto| | |].
    + intros b Hb. apply G1; auto. lia.
    + intros q Eq Hq. apply (G2 r _ q); auto.
    + exact E.
  - destruct (forallb is_scalar (tparams mus)) eqn:ES.
    + assert (Exs : tparams mus = map PS (map unscalar (tparams mus))).
      { rewrite map_map. rewrite <- (map_id (tparams mus)) at 1. apply map_ext_in. intros a Ha. rewrite forallb_forall in ES. specialize (ES a Ha). destruct a; [reflexivity|discriminate]. }
      set (xs := map unscalar (tparams mus)) in *. assert (Lxs : length xs = length mus) by (unfold xs; rewrite map_length; auto).
      rewrite Exs in E. match type of E with (match ?c with _ => _ end) = _ => destruct c as [f|e] eqn:Ef end; [|eapply FAIL; eauto; rewrite <- E, Hp; f_equal; rewrite Exs; reflexivity].
      assert (HNx : NoDup (map PS xs)) by (rewrite <- Exs; auto). assert (HLx : length (map entries2 ops) = length xs) by (rewrite map_length; lia).
      rewrite ?unscalar_all in Ef. destruct (faithful_sorted _ xs _ f FC HNx HLx Ef) as [G1 G2].
      apply (DONE (px_cubic X) f); [auto| | |].
      * intros b Hb. rewrite Exs. apply G1. lia.
      * intros q Eq Hq. apply (G2 r _ q); auto.
      * rewrite Exs. exact E.
    + destruct (px_linnd X (tparams mus) (map entries2 ops)) as [f|e] eqn:Ef; [|eapply FAIL; eauto; rewrite <- E, Hp; reflexivity].
      destruct (FL (tparams mus) (map entries2 ops) f) as [G1 G2]; [rewrite map_length; lia|auto|].
      apply (DONE (px_linnd X) f); [auto| | |].
      * intros b Hb. apply G1; auto. lia.
      * intros q Eq Hq. apply (G2 r _ q); auto.
      * exact E. Qed.

(* ---- one operator, then all of them -------------------------------------------------------------------------------------------- *)
Lemma pop_set_ok X r m p mus o E o' x : pext_ok X -> 0 < r -> uniform p mus -> NoDup mus -> mus <> [] -> readyi p mus o -> is_mat r (pw r m (length mus) o) E ->
  pop_set X o E = (o', x) ->
  psame X o o' /\ vequiv o o' /\ readyi p mus o' /\ (x = Ok tt -> version r m mus o o' /\ psized r m o' /\ opblock o' = E).
Proof. intros HX Hr HU HN Hne HR HE EP. destruct o as [o|a|t]; cbn [pop_set pw] in *.
  - destruct (set_2d_ok (mo_cls o) r m E Hr HE) as (e & E1 & E2 & E3 & E4). rewrite E1 in EP. cbn in EP. injection EP as <- <-.
    split; [reflexivity|]. split; [reflexivity|]. split; [exact I|]. intros _. split; [|split].
    + split; [reflexivity|]. exists e. auto.
    + exists e. auto.
    + unfold opblock. cbn. rewrite E4. reflexivity.
  - destruct HR as [Hn HG]. unfold aff_opdim in HE. destruct (split_family r m (a_cls a) (a_nterms a) E Hr Hn HE) as (ops & HL & HF & <-).
    destruct (aff_set_block_ok r m a ops Hr HF HL Hn) as (a' & E1 & HA & C1 & C2 & C3 & C4). rewrite E1 in EP. cbn in EP. injection EP as <- <-.
    split; [cbn; auto|]. split; [cbn; auto|]. split. { cbn. rewrite C3. split; auto. eapply Forall_impl; [|exact HG]. intros mu [G1 (th & G2 & G3)]. split; [rewrite C4; auto|]. exists th. unfold thetas in *. rewrite C2, C3. auto. }
    intros _. split; [|split].
    + cbn. repeat (split; [assumption|]). exists ops. auto.
    + exists ops. auto.
    + unfold opblock. cbn. rewrite (proj1 HA). reflexivity.
  - assert (HR' := HR). destruct HR' as (Hp & Hd & Hf). unfold i_opdim in HE.
    destruct (split_family r m (i_cls t) (length mus) E Hr ltac:(destruct mus; [congruence|cbn; lia]) HE) as (ops & HL & HF & <-).
    unfold wrap, i_set_block in EP. rewrite Hp, tparams_length, <- HL, <- (map_length entries2 ops) in EP.
    rewrite (np_split_hstack r (opdim (proto (i_cls t)) r m)) in EP; auto.
    2:{ destruct ops; [destruct mus; [congruence|discriminate]|cbn; congruence]. }
    2:{ rewrite map_map. apply family_blocks; auto. }
    destruct (i_set (px_cubic X) (px_linnd X) t (map entries2 ops)) as [t' y] eqn:EI. cbn in EP. injection EP as <- <-.
    destruct (i_set_faithful X r m p mus t ops t' y HX Hr HU HN HR HF HL Hne EI) as (A1 & A2 & A3 & A4 & A5).
    split; [split; auto|]. split; [exact A1|]. split; [exact A3|]. intros K. destruct (A5 K) as [A6 A7]. split; auto. split; auto. unfold opblock. cbn. rewrite A4. reflexivity. Qed.

Definition wdp (r m s : nat) (l : list pop) (i : nat) : nat := match nth_error l i with Some o => pw r m s o | None => 0 end.
Definition blk (l : list pop) (i : nat) : mat := match nth_error l i with Some o => opblock o | None => [] end.
Lemma pwidth_ok o s r m : pwidth o (Some s) (Some r) (Some m) = Ok (pw r m s o).
Proof. destruct o; reflexivity. Qed.
Lemma wdp_ext r m s l l' i : nth_error l' i = nth_error l i -> wdp r m s l' i = wdp r m s l i. Proof. unfold wdp. intros ->. auto. Qed.

Lemma pextract_ok X r m mm p mus O dd : pext_ok X -> 0 < r -> uniform p mus -> NoDup mus -> mus <> [] -> is_mat r dd O ->
  forall ix idx l l' x, NoDup ix -> (forall i, In i ix -> exists o, nth_error l i = Some o /\ readyi p mus o /\ pw r mm (length mus) o = pw r m (length mus) o) ->
  idx + lsumn (map (wdp r m (length mus) l) ix) <= dd -> pextract X (Some (length mus)) (Some r) (Some mm) O idx ix l = (l', x) ->
  length l' = length l /\ (forall j, ~ In j ix -> nth_error l' j = nth_error l j) /\
  (forall i o, In i ix -> nth_error l i = Some o -> exists o', nth_error l' i = Some o' /\ psame X o o' /\ vequiv o o' /\ readyi p mus o' /\ (x = Ok tt -> version r m mus o o' /\ psized r m o')) /\
  (x = Ok tt -> ix <> [] -> hstack (map (blk l') ix) = mcols idx (idx + lsumn (map (wdp r m (length mus) l) ix)) O).
Proof. intros HX Hr HU HN Hne HO. induction ix as [|i ix IH]; intros idx l l' x HND Hix Hle E.
  - cbn in E. injection E as <- <-. split; auto. split; auto. split; [intros i o []|]. congruence.
  - cbn [pextract] in E. destruct (Hix i (or_introl eq_refl)) as (o & Eo & Ho & Hw). rewrite Eo, pwidth_ok, Hw in E.
    change (lsumn (map (wdp r m (length mus) l) (i :: ix))) with (wdp r m (length mus) l i + lsumn (map (wdp r m (length mus) l) ix)) in *.
    assert (Ew : wdp r m (length mus) l i = pw r m (length mus) o) by (unfold wdp; rewrite Eo; auto). rewrite Ew in *. set (w := pw r m (length mus) o) in *.
    assert (HB := is_mat_mcols r dd idx (idx + w) O HO ltac:(lia) ltac:(lia)). replace (idx + w - idx) with w in HB by lia.
    destruct (pop_set X o (mcols idx (idx + w) O)) as [o1 x1] eqn:EP.
    destruct (pop_set_ok X r m p mus o _ o1 x1 HX Hr HU HN Hne Ho HB EP) as (S1 & V1 & R1 & K1).
    assert (Hi : i < length l) by (apply nth_error_Some; congruence). inversion HND as [|? ? Hni HND']; subst.
    destruct x1 as [[]|e].
    + destruct (IH (idx + w) (upd i o1 l) l' x HND') as (L2 & O2 & I2 & B2).
      * intros j Hj. destruct (Hix j (or_intror Hj)) as (oj & Ej & Hoj & Hwj). exists oj. split; auto. rewrite upd_other; auto. intros ->. auto.
      * rewrite (map_ext_in _ (wdp r m (length mus) l)). { lia. } intros j Hj. apply wdp_ext. apply upd_other. intros ->. auto.
      * exact E.
      * rewrite upd_length in L2. split; auto. split; [|split].
        -- intros j Hj. rewrite O2 by (intros K; apply Hj; right; auto). apply upd_other. intros ->. apply Hj. left; auto.
        -- intros j oj [<-|Hj] Ej.
           ++ rewrite Eo in Ej. injection Ej as <-. exists o1. rewrite O2 by auto. rewrite upd_same by auto. split; auto. split; auto. split; auto. split; auto. intros _. destruct (K1 eq_refl) as (A & B & _); auto.
           ++ apply I2; auto. rewrite upd_other; auto. intros ->. auto.
        -- intros K _. destruct (K1 eq_refl) as (_ & _ & A). assert (Eb : blk l' i = mcols idx (idx + w) O). { unfold blk. rewrite O2 by auto. rewrite upd_same by auto. exact A. }
           assert (EM : map (wdp r m (length mus) (upd i o1 l)) ix = map (wdp r m (length mus) l) ix). { apply map_ext_in. intros j Hj. apply wdp_ext. apply upd_other. intros ->. auto. }
           rewrite EM in B2. destruct ix as [|i2 ix].
           ++ cbn [map]. cbn. rewrite Nat.add_0_r. exact Eb.
           ++ specialize (B2 K ltac:(congruence)). set (W := lsumn (map (wdp r m (length mus) l) (i2 :: ix))) in *.
              assert (HBs : blocks r (map (wdp r m (length mus) l) (i2 :: ix)) (map (blk l') (i2 :: ix))).
              { assert (G : forall jx, (forall j, In j jx -> In j (i2 :: ix)) -> blocks r (map (wdp r m (length mus) l) jx) (map (blk l') jx)); [|apply G; auto].
                induction jx as [|j jx IHj]; intros Hj; cbn; constructor; [|apply IHj; intros; apply Hj; right; auto].
                assert (Hjin := Hj j (or_introl eq_refl)). destruct (Hix j (or_intror Hjin)) as (oj & Ej & Hoj & _).
                destruct (I2 j oj Hjin) as (oj' & Ej' & _ & _ & _ & KK). { rewrite upd_other; auto. intros ->. auto. }
                destruct (KK K) as [Hv _]. unfold wdp, blk. rewrite Ej, Ej'.
                clear - Hv Hr Hne. destruct oj as [o0|a0|t0], oj' as [o|a|t]; cbn [version pw] in *; try tauto; unfold opblock; cbn [pentries].
                - destruct Hv as [Ec (e & Ee & Hc & Hwf)]. rewrite Ee. cbn. rewrite <- Ec, <- Hc, opdim_proto. apply entries2_shape; auto.
                - destruct Hv as (C1 & C2 & C3 & C4 & (ops & F1 & F2 & F3 & F4)). rewrite F1. unfold aff_opdim. rewrite <- C3, <- C1, <- F3, <- lsumn_const. apply is_mat_hstack; [apply family_blocks; exact F2|]. destruct ops; cbn in *; [lia|congruence].
                - destruct Hv as (C1 & ops & F1 & F2 & F3 & F4). rewrite F1. unfold i_opdim. rewrite <- C1, <- F3, <- lsumn_const. apply is_mat_hstack; [apply family_blocks; exact F2|]. destruct ops, mus; cbn in *; congruence. }
              change (map (blk l') (i :: i2 :: ix)) with (blk l' i :: map (blk l') (i2 :: ix)).
              rewrite (hstack_step r w (map (wdp r m (length mus) l) (i2 :: ix))) by (rewrite ?Eb; auto; cbn; congruence).
              rewrite B2, Eb. rewrite (hcat_mcols r dd) by (auto; lia). f_equal. lia.
    + injection E as <- <-. rewrite upd_length. split; auto. split; [|split].
      * intros j Hj. apply upd_other. intros ->. apply Hj. left; auto.
      * intros j oj Hj Ej. destruct (Nat.eq_dec i j) as [<-|N].
        -- rewrite Eo in Ej. injection Ej as <-. exists o1. rewrite upd_same by auto. split; auto. split; auto. split; auto. split; auto. discriminate.
        -- exists oj. rewrite upd_other by auto. split; auto. destruct (Hix j Hj) as (oj2 & Ej2 & Hoj & _). assert (oj2 = oj) by congruence. subst. split; [apply psame_refl|]. split; [apply vequiv_refl|]. split; auto. discriminate.
      * discriminate. Qed.

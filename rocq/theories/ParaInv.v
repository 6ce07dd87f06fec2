(* ParaInv.v -- parametric models: what every history keeps. *)
From Coq Require Import ZArith Permutation.
From Verif Require Import LinAlg MatAlg OpsProofs BlockAlg SolverReg SolverCond AffProofs InterpProofs.
From Verif Require Export ParaVals MonoHist.
From Verif Require Export SpecPara.
#[local] Open Scope nat_scope.

Definition icls_from (X : pext) (t t' : itp) : Prop := forall C, i_iclass t' = Some C -> i_iclass t = Some C \/ C = px_cubic X \/ C = px_linnd X.
(* same class, coefficient functions and number of terms *)
Definition psame (X : pext) (o o' : pop) : Prop :=
  match o, o' with
  | PMono o, PMono o' => mo_cls o' = mo_cls o
  | PAff a, PAff a' => a_cls a' = a_cls a /\ a_theta a' = a_theta a /\ a_nterms a' = a_nterms a
  | PItp t, PItp t' => i_cls t' = i_cls t /\ icls_from X t t'
  | _, _ => False
  end.
Lemma psame_refl X o : psame X o o.
Proof. destruct o; cbn; auto. split; auto. intros C H; auto. Qed.
Lemma psame_trans X a b c : psame X a b -> psame X b c -> psame X a c.
Proof. destruct a, b, c; cbn; try tauto; try (intuition congruence).
  intros [H1 H2] [H3 H4]. split; [congruence|]. intros C HC. destruct (H4 C HC) as [K|K]; auto. Qed.
Lemma psame_cls X o o' : psame X o o' -> pcls o' = pcls o.
Proof. destruct o, o'; cbn; try tauto. Qed.
(* same object up to the parameter dimension *)
Definition pkept (o o' : pop) : Prop := o' = o \/ exists p, o' = with_pdim p o.
Lemma with_pdim2 p q o : with_pdim p (with_pdim q o) = with_pdim p o. Proof. destruct o; reflexivity. Qed.
Lemma pkept_refl o : pkept o o. Proof. left; auto. Qed.
Lemma pkept_trans a b c : pkept a b -> pkept b c -> pkept a c.
Proof. intros [->|[p ->]] [->|[q ->]]; try (left; reflexivity); right; [exists q|exists p|exists q]; rewrite ?with_pdim2; auto. Qed.
Lemma psame_pdim X p o : psame X o (with_pdim p o).
Proof. destruct o; cbn; auto. split; auto. intros C H; auto. Qed.
Lemma pkept_same X o o' : pkept o o' -> psame X o o'.
Proof. intros [->|[p ->]]; [apply psame_refl|apply psame_pdim]. Qed.
Lemma pentries_pdim p o : pentries (with_pdim p o) = pentries o. Proof. destruct o; reflexivity. Qed.
Lemma pkept_entries o o' : pkept o o' -> pentries o' = pentries o.
Proof. intros [->|[p ->]]; auto. apply pentries_pdim. Qed.
Lemma psized_pdim r m p o : psized r m (with_pdim p o) <-> psized r m o. Proof. destruct o; reflexivity. Qed.
Lemma pkept_sized r m o o' : pkept o o' -> psized r m o' <-> psized r m o.
Proof. intros [->|[p ->]]; [reflexivity|apply psized_pdim]. Qed.
Lemma psized_entries r m o : psized r m o -> exists e es, pentries o = Some (e :: es) /\ wf_op r m e /\ cls_of e = pcls o.
Proof. destruct o as [o|a|t]; cbn.
  - intros (e & E & Hc & Hw). rewrite E. exists e, []. auto.
  - intros (ops & E & HF & HL & Hn). destruct ops as [|e es]; [cbn in HL; lia|]. unfold family in HF. apply Forall_cons_iff in HF. destruct HF as [[Hw Hc] _]. exists e, es. auto.
  - intros (ops & f & E & Hne & HF & _). destruct ops as [|e es]; [congruence|]. unfold family in HF. apply Forall_cons_iff in HF. destruct HF as [[Hw Hc] _]. exists e, es. auto. Qed.
Lemma psized_rows r m o : psized r m o -> prows o = Some r.
Proof. intros H. destruct (psized_entries r m o H) as (e & es & E & Hw & Hc). unfold prows. rewrite E. f_equal. apply (wf_rows r m); auto. Qed.
Lemma psized_inputs r m o : 0 < r -> psized r m o -> ptakes o = true -> pinputs o = Some m.
Proof. intros Hr H Ht. destruct (psized_entries r m o H) as (e & es & E & Hw & Hc). unfold pinputs. rewrite E. f_equal. apply (wf_inputs r m); auto. rewrite Hc. exact Ht. Qed.

Record pframe (X : pext) (d d' : pmodel) : Prop := {
  pfr_kind : pm_kind d' = pm_kind d; pfr_infer : pm_infer d' = pm_infer d; pfr_known : pm_known d' = pm_known d; pfr_hasin : pm_hasin d' = pm_hasin d;
  pfr_intr : pm_intrusive d' = pm_intrusive d; pfr_len : length (pm_ops d') = length (pm_ops d);
  pfr_ops : forall i o, nth_error (pm_ops d) i = Some o -> exists o', nth_error (pm_ops d') i = Some o' /\ psame X o o' /\ (In i (pm_known d) -> pkept o o') }.
Lemma pframe_refl X d : pframe X d d.
Proof. constructor; auto. intros i o E. exists o. split; auto. split; [apply psame_refl|intros _; apply pkept_refl]. Qed.
Lemma pframe_trans X a b c : pframe X a b -> pframe X b c -> pframe X a c.
Proof. intros [A1 A2 A3 A4 A5 A6 A7] [B1 B2 B3 B4 B5 B6 B7]. constructor; try congruence. intros i o E.
  destruct (A7 i o E) as (o1 & E1 & S1 & K1). destruct (B7 i o1 E1) as (o2 & E2 & S2 & K2). exists o2. split; auto. split; [eapply psame_trans; eauto|].
  intros H. eapply pkept_trans; [apply K1; auto|apply K2; congruence]. Qed.
(* changes that are not about operators *)
Lemma pframe_ops_eq X d d' : pm_kind d' = pm_kind d -> pm_infer d' = pm_infer d -> pm_known d' = pm_known d -> pm_hasin d' = pm_hasin d ->
  pm_intrusive d' = pm_intrusive d -> pm_ops d' = pm_ops d -> pframe X d d'.
Proof. intros. constructor; auto; try congruence. intros i o E. exists o. rewrite H4. split; auto. split; [apply psame_refl|intros _; apply pkept_refl]. Qed.

Definition paux (o : pop) : Prop := match o with PMono _ => True | PAff a => 0 < a_nterms a | PItp t => forall C, i_iclass t = Some C -> faithful C end.
Record pinv (X : pext) (d : pmodel) : Prop := {
  pi_ne : pm_ops d <> [];
  pi_perm : Permutation (pm_infer d ++ pm_known d) (seq 0 (length (pm_ops d)));
  pi_known : forall i, In i (pm_known d) -> exists o r m, nth_error (pm_ops d) i = Some o /\ 0 < r /\ 0 < m /\ psized r m o;
  pi_aux : forall o, In o (pm_ops d) -> paux o;
  pi_hasin : pm_hasin d = existsb ptakes (pm_ops d);
  pi_intr : pm_intrusive d = (length (pm_infer d) =? 0);
  pi_solver : forall s, pm_solver d = Some s -> winv (px_l X) s }.

Lemma psame_aux X o o' : faithful (px_cubic X) -> faithful (px_linnd X) -> psame X o o' -> paux o -> paux o'.
Proof. intros F1 F2. destruct o, o'; cbn; try tauto.
  - intros (_ & _ & ->). auto.
  - intros [_ H] HC C HC'. destruct (H C HC') as [K|[->| ->]]; auto. Qed.
Lemma pframe_nth X d d' i o' : pframe X d d' -> nth_error (pm_ops d') i = Some o' -> exists o, nth_error (pm_ops d) i = Some o /\ psame X o o' /\ (In i (pm_known d) -> pkept o o').
Proof. intros H E. assert (i < length (pm_ops d)). { rewrite <- (pfr_len X d d' H). apply nth_error_Some. congruence. }
  destruct (nth_error_lt (pm_ops d) i) as [o Eo]; auto. exists o. split; auto. destruct (pfr_ops X d d' H i o Eo) as (o2 & E2 & S & K). rewrite E in E2. injection E2 as <-. auto. Qed.
Lemma pframe_cls X d d' : pframe X d d' -> map pcls (pm_ops d') = map pcls (pm_ops d).
Proof. intros H. apply nth_error_map_ext; [apply H|]. intros i o o' E E'. destruct (pframe_nth X d d' i o H E) as (o2 & E2 & S & _). rewrite E' in E2. injection E2 as <-. apply (psame_cls X); auto. Qed.
Lemma existsb_ptakes (l l' : list pop) : map pcls l = map pcls l' -> existsb ptakes l = existsb ptakes l'.
Proof. revert l'. induction l as [|o l IH]; intros [|o' l'] H; try discriminate; auto. injection H as H1 H2. cbn. unfold ptakes at 1 3. rewrite H1, (IH l') by auto. auto. Qed.

Lemma pframe_inv X d d' : pext_ok X -> pinv X d -> pframe X d d' -> (forall s, pm_solver d' = Some s -> winv (px_l X) s) -> pinv X d'.
Proof. intros (_ & HF1 & HF2) H F HS. assert (HL := pfr_len X d d' F). constructor; auto.
  - intros K. rewrite K in HL. destruct (pm_ops d) eqn:E; [apply (pi_ne X d H); auto|discriminate].
  - rewrite (pfr_infer X d d' F), (pfr_known X d d' F), HL. apply (pi_perm X d H).
  - intros i Hi. rewrite (pfr_known X d d' F) in Hi. destruct (pi_known X d H i Hi) as (o & r & m & E & Hr & Hm & Hs).
    destruct (pfr_ops X d d' F i o E) as (o' & E' & S & K). exists o', r, m. split; auto. split; auto. split; auto. apply (pkept_sized r m o o'); auto.
  - intros o' Ho. apply In_nth_error in Ho. destruct Ho as [i Ei]. destruct (pframe_nth X d d' i o' F Ei) as (o & E & S & _).
    apply (psame_aux X o); auto. apply (pi_aux X d H). eapply nth_error_In; eauto.
  - rewrite (pfr_hasin X d d' F), (pi_hasin X d H). apply existsb_ptakes. symmetry. apply (pframe_cls X); auto.
  - rewrite (pfr_intr X d d' F), (pfr_infer X d d' F). apply (pi_intr X d H). Qed.

Lemma pinv_lt X d i : pinv X d -> In i (pm_infer d) \/ In i (pm_known d) -> i < length (pm_ops d).
Proof. intros H Hi. assert (K : In i (seq 0 (length (pm_ops d)))). { eapply Permutation_in; [apply (pi_perm X d H)|]. apply in_or_app. auto. } apply in_seq in K. lia. Qed.
Lemma pinv_nodup X d : pinv X d -> NoDup (pm_infer d ++ pm_known d).
Proof. intros H. eapply Permutation_NoDup; [apply Permutation_sym, (pi_perm X d H)|apply seq_NoDup]. Qed.
Lemma pinv_disj X d i : pinv X d -> In i (pm_infer d) -> In i (pm_known d) -> False.
Proof. intros H. eapply NoDup_app_disj. eapply pinv_nodup; eauto. Qed.
Lemma pinv_all X d i : pinv X d -> i < length (pm_ops d) -> In i (pm_infer d) \/ In i (pm_known d).
Proof. intros H Hi. apply in_app_or. eapply Permutation_in; [apply Permutation_sym, (pi_perm X d H)|]. apply in_seq. lia. Qed.

(* ---- clearing ------------------------------------------------------------------------------------------------------------ *)
Lemma pclear_ops_length ix : forall l, length (pclear_ops ix l) = length l.
Proof. induction ix as [|i ix IH]; intros l; auto. cbn. rewrite IH. destruct (nth_error l i); auto. apply upd_length. Qed.
Lemma pclear_ops_out ix : forall l j, ~ In j ix -> nth_error (pclear_ops ix l) j = nth_error l j.
Proof. induction ix as [|i ix IH]; intros l j Hj; auto. cbn. rewrite IH by (intros K; apply Hj; right; auto). destruct (nth_error l i); auto.
  apply upd_other. intros ->. apply Hj; left; auto. Qed.
Lemma pclear2 o : pclear (pclear o) = pclear o. Proof. destruct o; reflexivity. Qed.
Lemma pclear_ops_in ix : forall l j, In j ix -> nth_error (pclear_ops ix l) j = option_map pclear (nth_error l j).
Proof. induction ix as [|i ix IH]; intros l j Hj; [destruct Hj|]. set (l1 := match nth_error l i with Some o => upd i (pclear o) l | None => l end).
  change (pclear_ops (i :: ix) l) with (pclear_ops ix l1). assert (E1 : nth_error l1 j = if Nat.eq_dec i j then option_map pclear (nth_error l j) else nth_error l j).
  { unfold l1. destruct (nth_error l i) as [o|] eqn:E.
    - destruct (Nat.eq_dec i j) as [<-|N]; [|apply upd_other; auto]. rewrite E. cbn. apply upd_same. apply nth_error_Some. congruence.
    - destruct (Nat.eq_dec i j) as [<-|N]; auto. rewrite E. reflexivity. }
  destruct (in_dec Nat.eq_dec j ix) as [Hin|Hout].
  - etransitivity; [apply IH; auto|]. rewrite E1. destruct (Nat.eq_dec i j); auto. destruct (nth_error l j); cbn; rewrite ?pclear2; auto.
  - etransitivity; [apply pclear_ops_out; auto|]. rewrite E1. destruct Hj as [->|Hj]; [|tauto]. destruct (Nat.eq_dec j j); [auto|congruence]. Qed.
Lemma psame_clear X o : psame X o (pclear o).
Proof. destruct o; cbn; auto. split; auto. intros C H; auto. Qed.
Lemma pclear_ops_frame X d : pinv X d -> pframe X d (pw_ops (pclear_ops (pm_infer d) (pm_ops d)) d).
Proof. intros H. constructor; auto; cbn [pw_ops pm_ops pm_known].
  - apply pclear_ops_length.
  - intros i o E. destruct (in_dec Nat.eq_dec i (pm_infer d)) as [Hi|Hi].
    + exists (pclear o). rewrite pclear_ops_in by auto. rewrite E. split; auto. split; [apply psame_clear|]. intros K. exfalso. eapply pinv_disj; eauto.
    + exists o. rewrite pclear_ops_out by auto. split; auto. split; [apply psame_refl|intros _; apply pkept_refl]. Qed.

(* the operators to be learned have no entries *)
Definition pcleared (d : pmodel) : Prop := forall i o, In i (pm_infer d) -> nth_error (pm_ops d) i = Some o -> pentries o = None /\ match o with PItp t => i_interp t = None | _ => True end.
(* the dimensions of the model are those of its operators *)
Definition rowsok (d : pmodel) : Prop := forall o r, In o (pm_ops d) -> prows o = Some r -> pm_r d = Some r.
Definition insok (d : pmodel) : Prop := forall o m, In o (pm_ops d) -> ptakes o = true -> pinputs o = Some m -> pm_m d = Some m.

Lemma in_somes l a : In a (somes l) <-> In (Some a) l.
Proof. unfold somes. rewrite in_flat_map. split.
  - intros (x & Hx & Ha). destruct x; [|destruct Ha]. destruct Ha as [<-|[]]. auto.
  - intros H. exists (Some a). split; auto. left; auto. Qed.
Lemma one_of_in l x a : one_of l = Ok x -> In a l -> x = Some a.
Proof. intros E H. apply one_of_ok in E. destruct x as [b|]; [|subst; destruct H]. destruct E as [_ E]. rewrite Forall_forall in E. rewrite (E a H). auto. Qed.
Lemma pstate_dim_ok l x o r : pstate_dim l = Ok x -> In o l -> prows o = Some r -> x = Some r.
Proof. intros E Ho Er. eapply one_of_in; eauto. apply in_somes. rewrite <- Er. apply in_map; auto. Qed.
Lemma pinput_dim_ok l x o m : pinput_dim l = Ok x -> In o l -> ptakes o = true -> pinputs o = Some m -> x = Some m.
Proof. intros E Ho Ht Em. unfold pinput_dim in E. assert (In o (filter ptakes l)) by (apply filter_In; auto).
  destruct (filter ptakes l) as [|a t] eqn:EF; [destruct H|]. eapply one_of_in; eauto. apply in_somes. rewrite <- Em. apply in_map; auto. Qed.
Lemma pinput_dim_none l x : pinput_dim l = Ok x -> existsb ptakes l = false -> x = Some 0.
Proof. intros E H. unfold pinput_dim in E. rewrite existsb_false_filter in E by auto. congruence. Qed.

Lemma pclear_model_inv X d d' x : pext_ok X -> pinv X d -> pclear_model d = (d', x) ->
  pframe X d d' /\ pm_solver d' = pm_solver d /\ pm_s d' = pm_s d /\ pcleared d' /\
  (x = Ok tt -> rowsok d' /\ insok d' /\ (pm_hasin d' = false -> pm_m d' = Some 0)).
Proof. intros HX H E. unfold pclear_model in E. set (d1 := pw_ops (pclear_ops (pm_infer d) (pm_ops d)) d) in *.
  assert (F1 : pframe X d d1) by (apply pclear_ops_frame; auto).
  assert (C1 : pcleared d1). { intros i o Hi Eo. unfold d1 in Eo; cbn in Eo, Hi. rewrite pclear_ops_in in Eo by auto. destruct (nth_error (pm_ops d) i) as [o0|]; [|discriminate]. cbn in Eo. injection Eo as <-. destruct o0; split; reflexivity || exact I. }
  assert (H1 : pinv X d1). { eapply pframe_inv; eauto. apply (pi_solver X d H). }
  destruct (pstate_dim (pm_ops d1)) as [r|] eqn:Er. 2:{ injection E as <- <-. split; [exact F1|split; [reflexivity|split; [reflexivity|split; [exact C1|discriminate]]]]. }
  destruct (pinput_dim (pm_ops (pw_r r d1))) as [m|] eqn:Em; injection E as <- <-.
  2:{ split; [|split; [auto|split; [auto|split; [exact C1|discriminate]]]]. eapply pframe_trans; [exact F1|]. apply pframe_ops_eq; auto. }
  split; [eapply pframe_trans; [exact F1|]; apply pframe_ops_eq; auto|]. split; [reflexivity|]. split; [reflexivity|]. split; [exact C1|]. intros _. split; [|split].
  - intros o r0 Ho E0. cbn [pw_m pw_r pm_r pm_ops] in *. eapply pstate_dim_ok; eauto.
  - intros o m0 Ho Ht E0. cbn [pw_m pw_r pm_m pm_ops] in *. eapply pinput_dim_ok; eauto.
  - intros Hh. cbn [pw_m pw_r pm_m pm_ops pm_hasin] in *. eapply pinput_dim_none; eauto. change (pm_ops (pw_r r d1)) with (pm_ops d1). rewrite <- (pi_hasin X d1 H1). exact Hh. Qed.

(* ---- parameter dimensions -------------------------------------------------------------------------------------------------- *)
Definition setp (q : nat) (o : pop) : pop := match pdim o with None => with_pdim q o | Some _ => o end.
Lemma pkept_setp q o : pkept o (setp q o).
Proof. unfold setp. destruct (pdim o); [left; auto|right; eauto]. Qed.
Lemma setp_clr q o : pentries (setp q o) = pentries o /\ prows (setp q o) = prows o /\ pinputs (setp q o) = pinputs o /\ ptakes (setp q o) = ptakes o /\ is_param (setp q o) = is_param o.
Proof. unfold setp. destruct (pdim o), o; cbn; auto. Qed.
Lemma psync_inv X nd d d' x : pext_ok X -> pinv X d -> psync nd d = (d', x) ->
  pframe X d d' /\ pm_solver d' = pm_solver d /\ pm_s d' = pm_s d /\ pm_r d' = pm_r d /\ pm_m d' = pm_m d /\ (pcleared d -> pcleared d') /\ (rowsok d -> rowsok d') /\ (insok d -> insok d') /\
  forall p, nd = Some p -> x = Ok tt -> pm_p d' = Some p /\ forall o, In o (pm_ops d') -> is_param o = true -> pdim o = Some p.
Proof. intros HX H E. unfold psync in E.
  destruct (one_of (somes (map pdim (pm_ops d)))) as [p0|] eqn:EO.
  2:{ injection E as <- <-. split; [apply pframe_refl|]. repeat (split; [solve [auto]|]). intros; discriminate. }
  set (p' := match nd with Some n => match p0 with Some _ => p0 | None => Some n end | None => p0 end) in *.
  destruct (match nd with Some n => match p' with Some q => negb (q =? n) | None => false end | None => false end) eqn:EB.
  { injection E as <- <-. split; [apply pframe_refl|]. repeat (split; [solve [auto]|]). intros; discriminate. }
  assert (HP : forall o q, In o (pm_ops d) -> pdim o = Some q -> p0 = Some q).
  { intros o q Ho Eq. eapply one_of_in; eauto. apply in_somes. rewrite <- Eq. apply in_map; auto. }
  destruct p' as [q|] eqn:Ep; injection E as <- <-.
  - assert (FR : pframe X d (pw_p (Some q) (pw_ops (map (setp q) (pm_ops d)) d))).
    { constructor; auto; cbn [pw_p pw_ops pm_ops pm_known].
      - apply map_length.
      - intros i o Eo. exists (setp q o). rewrite nth_error_map, Eo. split; auto. split; [apply pkept_same, pkept_setp|intros _; apply pkept_setp]. }
    split; [exact FR|]. split; [reflexivity|]. split; [reflexivity|]. split; [reflexivity|]. split; [reflexivity|]. split; [|split; [|split]].
    + intros HC i o Hi Eo. cbn [pw_p pw_ops pm_ops pm_infer] in *. rewrite nth_error_map in Eo. destruct (nth_error (pm_ops d) i) as [o0|] eqn:Eo0; [|discriminate]. cbn in Eo. injection Eo as <-.
      destruct (HC i o0 Hi Eo0) as [K1 K2]. destruct (setp_clr q o0) as (S1 & _). fold (setp q o0). rewrite S1. split; auto. unfold setp. destruct (pdim o0), o0; cbn in *; auto.
    + intros HR o r Ho Er. cbn [pw_p pw_ops pm_ops pm_r] in *. apply in_map_iff in Ho. destruct Ho as (o0 & <- & Ho). fold (setp q o0) in Er. destruct (setp_clr q o0) as (_ & S2 & _). rewrite S2 in Er. eapply HR; eauto.
    + intros HR o r Ho Ht Er. cbn [pw_p pw_ops pm_ops pm_m] in *. apply in_map_iff in Ho. destruct Ho as (o0 & <- & Ho). fold (setp q o0) in Er, Ht. destruct (setp_clr q o0) as (_ & _ & S2 & S3 & _). rewrite S2 in Er. rewrite S3 in Ht. eapply HR; eauto.
    + intros p -> _. cbn [pw_p pm_p]. assert (q = p). { apply negb_false_iff, Nat.eqb_eq in EB. auto. } subst q. split; auto. intros o Ho Hi. cbn [pw_p pw_ops pm_ops] in Ho. apply in_map_iff in Ho. destruct Ho as (o0 & <- & Ho).
      fold (setp p o0) in *. destruct (setp_clr p o0) as (_ & _ & _ & _ & S5). rewrite S5 in Hi. unfold setp. destruct (pdim o0) as [q0|] eqn:E0.
      * rewrite E0. specialize (HP o0 q0 Ho E0). subst p0. unfold p' in Ep. cbn in Ep. congruence.
      * destruct o0; cbn in *; auto. discriminate.
  - split; [apply pframe_ops_eq; auto|]. repeat (split; [solve [auto]|]). intros p -> _. exfalso. unfold p' in Ep. destruct p0; discriminate. Qed.

(* ---- setting dimensions ------------------------------------------------------------------------------------------------------ *)
Lemma pset_r_inv X r d d' x : pset_r r d = (d', x) -> pframe X d d' /\ pm_solver d' = pm_solver d /\ pm_s d' = pm_s d /\ pm_ops d' = pm_ops d /\ pm_m d' = pm_m d /\ pm_p d' = pm_p d /\
  (x = Ok tt -> pm_r d' = Some r /\ rowsok d').
Proof. unfold pset_r. destruct (forallb (Nat.eqb r) (somes (map prows (pm_ops d)))) eqn:EF; intros E; injection E as <- <-.
  - split; [apply pframe_ops_eq; auto|]. do 5 (split; [reflexivity|]). intros _. split; auto. intros o r0 Ho E0. cbn [pw_r pm_ops pm_r] in *.
    rewrite forallb_forall in EF. f_equal. apply Nat.eqb_eq, EF. apply in_somes. rewrite <- E0. apply in_map; auto.
  - split; [apply pframe_refl|]. do 5 (split; [reflexivity|]). discriminate. Qed.
Lemma pset_m_inv X m d d' x : pset_m m d = (d', x) -> pframe X d d' /\ pm_solver d' = pm_solver d /\ pm_s d' = pm_s d /\ pm_ops d' = pm_ops d /\ pm_r d' = pm_r d /\ pm_p d' = pm_p d /\
  (x = Ok tt -> pm_m d' = Some m /\ insok d').
Proof. unfold pset_m. destruct (negb (pm_hasin d) && negb (m =? 0)).
  { intros E; injection E as <- <-. split; [apply pframe_refl|]. do 5 (split; [reflexivity|]). intros; discriminate. }
  destruct (forallb (Nat.eqb m) (somes (map pinputs (filter ptakes (pm_ops d))))) eqn:EF; intros E; injection E as <- <-.
  - split; [apply pframe_ops_eq; auto|]. do 5 (split; [reflexivity|]). intros _. split; auto. intros o r0 Ho Ht E0. cbn [pw_m pm_ops pm_m] in *.
    rewrite forallb_forall in EF. f_equal. apply Nat.eqb_eq, EF. apply in_somes. rewrite <- E0. apply in_map, filter_In; auto.
  - split; [apply pframe_refl|]. do 5 (split; [reflexivity|]). discriminate. Qed.

Lemma params_dim_ok mus p : params_dim mus = Ok p -> mus <> [] -> (forall mu, In mu mus -> plen mu = p) /\ exists n, forall mu, In mu mus -> pndim mu = n.
Proof. unfold params_dim. destruct mus as [|p0 t]; [congruence|]. destruct (forallb _ t) eqn:E; [|discriminate]. intros [= <-] _. rewrite forallb_forall in E. split; [|exists (pndim p0)].
  - intros mu [<-|Hm]; auto. specialize (E mu Hm). apply andb_prop in E. destruct E as [_ E]. apply Nat.eqb_eq; auto.
  - intros mu [<-|Hm]; auto. specialize (E mu Hm). apply andb_prop in E. destruct E as [E _]. apply Nat.eqb_eq; auto. Qed.

(* ---- _process_fit_arguments ---------------------------------------------------------------------------------------------------- *)
Lemma pcleared_ops d d' : pm_infer d' = pm_infer d -> pm_ops d' = pm_ops d -> pcleared d -> pcleared d'.
Proof. intros E1 E2 H i o. rewrite E1, E2. apply H. Qed.
Lemma rowsok_ops d d' : pm_r d' = pm_r d -> pm_ops d' = pm_ops d -> rowsok d -> rowsok d'.
Proof. intros E1 E2 H o r. rewrite E1, E2. apply H. Qed.
Lemma insok_ops d d' : pm_m d' = pm_m d -> pm_ops d' = pm_ops d -> insok d -> insok d'.
Proof. intros E1 E2 H o r. rewrite E1, E2. apply H. Qed.

Record pprocessed (d d' : pmodel) (mus : list pval) (states lhs : list arr) (inputs : option (list arr)) (r : nat) (Qs Zs : list mat) (Us : list (option arr)) : Prop := {
  pp_Q : Qs = map atleast_2d states; pp_ls : length states = length mus; pp_ll : length lhs = length mus;
  pp_r : pm_r d' = Some r; pp_rows : rowsok d'; pp_ins : insok d';
  pp_rq : all_rows (Some r) (map atleast_2d states) = true; pp_rl : all_rows (Some r) (map atleast_2d lhs) = true;
  pp_cols : same_cols (map atleast_2d lhs) (map atleast_2d states) = true;
  pp_in : pm_hasin d = true -> exists us m, inputs = Some us /\ Us = map (fun u => Some (M (atleast_2d u))) us /\ pm_m d' = Some m /\ length us = length mus /\
            all_rows (Some m) (map atleast_2d us) = true /\ same_cols (map atleast_2d us) (map atleast_2d states) = true;
  pp_noin : pm_hasin d = false -> pm_m d' = Some 0 /\ Us = match inputs with None => repeat None (length mus) | Some us => map Some us end;
  pp_sub : psubtract (pm_ops d') (pm_known d') mus Qs Us (map atleast_2d lhs) = Ok Zs;
  pp_p : exists p, params_dim mus = Ok p /\ forall o, In o (pm_ops d') -> is_param o = true -> pdim o = Some p }.

Lemma pprocess_inv X d mus states lhs inputs d' x : pext_ok X -> pinv X d -> pprocess d mus states lhs inputs = (d', x) ->
  pframe X d d' /\ pm_solver d' = pm_solver d /\ pm_s d' = pm_s d /\ pcleared d' /\
  (forall Qs Zs Us, x = Ok (Qs, Zs, Us) -> exists r, pprocessed d d' mus states lhs inputs r Qs Zs Us).
Proof. intros HX H E. unfold pprocess in E.
  destruct (pclear_model d) as [d1 x1] eqn:E1. destruct (pclear_model_inv X d d1 x1 HX H E1) as (F1 & S1 & T1 & C1 & K1). clear E1.
  destruct x1 as [[]|e]; cbn [pseq] in E. 2:{ injection E as <- <-. split; auto. split; auto. split; auto. split; auto. discriminate. }
  destruct (K1 eq_refl) as (R1 & I1 & N1). clear K1.
  assert (H1 : pinv X d1). { eapply pframe_inv; eauto. rewrite S1. apply (pi_solver X d H). }
  destruct (params_dim mus) as [p|e] eqn:Ep; cbn [pseq] in E. 2:{ injection E as <- <-. split; auto. split; auto. split; auto. split; auto. discriminate. }
  destruct (psync (Some p) d1) as [d2 x2] eqn:E2. destruct (psync_inv X _ d1 d2 x2 HX H1 E2) as (F2 & S2 & T2 & r2 & m2 & C2 & R2 & I2 & K2). clear E2.
  assert (F12 := pframe_trans X _ _ _ F1 F2).
  destruct x2 as [[]|e]; cbn [pseq] in E. 2:{ injection E as <- <-. split; auto. split; [congruence|]. split; [congruence|]. split; auto. discriminate. }
  destruct (K2 p eq_refl eq_refl) as (_ & P2). clear K2.
  assert (H2 : pinv X d2). { eapply pframe_inv; eauto. rewrite S2, S1. apply (pi_solver X d H). }
  specialize (C2 C1). specialize (R2 R1). specialize (I2 I1).
  assert (N2 : pm_hasin d2 = false -> pm_m d2 = Some 0). { intros K. rewrite m2. apply N1. rewrite <- (pfr_hasin X d1 d2 F2). auto. }
  match type of E with pseq ?t _ = _ => destruct t as [d3 x3] eqn:E3 end.
  assert (G3 : pframe X d2 d3 /\ pm_solver d3 = pm_solver d2 /\ pm_s d3 = pm_s d2 /\ pm_ops d3 = pm_ops d2 /\ pm_m d3 = pm_m d2 /\ (x3 = Ok tt -> exists r, pm_r d3 = Some r /\ rowsok d3)).
  { destruct (pm_r d2) as [r|] eqn:Er. { injection E3 as <- <-. split; [apply pframe_refl|]. repeat (split; [reflexivity|]). intros _. eauto. }
    destruct (map atleast_2d states) as [|Q Qs]. { injection E3 as <- <-. split; [apply pframe_refl|]. repeat (split; [reflexivity|]). discriminate. }
    destruct (pset_r_inv X _ _ _ _ E3) as (A1 & A2 & A3 & A4 & A5 & A6 & A7). repeat (split; [assumption|]). intros K. destruct (A7 K); eauto. }
  clear E3. destruct G3 as (F3 & S3 & T3 & O3 & M3 & K3). assert (F13 := pframe_trans X _ _ _ F12 F3).
  assert (C3 : pcleared d3) by (eapply pcleared_ops; [apply (pfr_infer X d2 d3 F3)|exact O3|auto]).
  destruct x3 as [[]|e]; cbn [pseq] in E. 2:{ injection E as <- <-. split; auto. split; [congruence|]. split; [congruence|]. split; auto. discriminate. }
  destruct (K3 eq_refl) as (r & Er & R3). clear K3. assert (I3 : insok d3) by (eapply insok_ops; [exact M3|exact O3|auto]).
  assert (P3 : forall o, In o (pm_ops d3) -> is_param o = true -> pdim o = Some p) by (rewrite O3; auto).
  assert (N3 : pm_hasin d3 = false -> pm_m d3 = Some 0). { intros K. rewrite M3. apply N2. rewrite <- (pfr_hasin X d2 d3 F3). auto. }
  assert (Hh3 : pm_hasin d3 = pm_hasin d) by (apply (pfr_hasin X d d3 F13)).
  assert (FAIL : forall e, (d3, Err e) = (d', x) -> pframe X d d' /\ pm_solver d' = pm_solver d /\ pm_s d' = pm_s d /\ pcleared d' /\
    (forall Qs Zs Us, x = Ok (Qs, Zs, Us) -> exists r, pprocessed d d' mus states lhs inputs r Qs Zs Us)).
  { intros e K. injection K as <- <-. split; auto. split; [congruence|]. split; [congruence|]. split; auto. discriminate. }
  destruct (negb (length (map atleast_2d states) =? length mus)) eqn:B1; [eapply FAIL; eauto|].
  destruct (negb (all_rows (pm_r d3) (map atleast_2d states))) eqn:B2; [eapply FAIL; eauto|].
  destruct (negb (length (map atleast_2d lhs) =? length mus)) eqn:B3; [eapply FAIL; eauto|].
  destruct (negb (all_rows (pm_r d3) (map atleast_2d lhs))) eqn:B4; [eapply FAIL; eauto|].
  destruct (negb (same_cols (map atleast_2d lhs) (map atleast_2d states))) eqn:B5; [eapply FAIL; eauto|].
  apply negb_false_iff in B1, B2, B3, B4, B5. rewrite map_length in B1, B3. apply Nat.eqb_eq in B1, B3. rewrite Er in B2, B4.
  destruct (pm_hasin d3) eqn:Hh.
  - destruct inputs as [us|]; cbn [pseq] in E; [|eapply FAIL; eauto].
    match type of E with pseq (pseq ?t _) _ = _ => destruct t as [d4 x4] eqn:E4 end.
    assert (G4 : pframe X d3 d4 /\ pm_solver d4 = pm_solver d3 /\ pm_s d4 = pm_s d3 /\ pm_ops d4 = pm_ops d3 /\ pm_r d4 = pm_r d3 /\ (x4 = Ok tt -> exists m, pm_m d4 = Some m /\ insok d4)).
    { assert (KK : (d4, x4) = (d3, Ok tt) -> (exists m, pm_m d3 = Some m) -> pframe X d3 d4 /\ pm_solver d4 = pm_solver d3 /\ pm_s d4 = pm_s d3 /\ pm_ops d4 = pm_ops d3 /\ pm_r d4 = pm_r d3 /\ (x4 = Ok tt -> exists m, pm_m d4 = Some m /\ insok d4)).
      { intros K [m Em]. injection K as -> ->. split; [apply pframe_refl|]. repeat (split; [reflexivity|]). intros _. eauto. }
      assert (KS : match map atleast_2d us with [] => (d3, Err IndexError) | U :: _ => pset_m (nrows U) d3 end = (d4, x4) ->
        pframe X d3 d4 /\ pm_solver d4 = pm_solver d3 /\ pm_s d4 = pm_s d3 /\ pm_ops d4 = pm_ops d3 /\ pm_r d4 = pm_r d3 /\ (x4 = Ok tt -> exists m, pm_m d4 = Some m /\ insok d4)).
      { destruct (map atleast_2d us) as [|U Us]; intros K.
        - injection K as <- <-. split; [apply pframe_refl|]. repeat (split; [reflexivity|]). discriminate.
        - destruct (pset_m_inv X _ _ _ _ K) as (A1 & A2 & A3 & A4 & A5 & A6 & A7). repeat (split; [assumption|]). intros K2. destruct (A7 K2); eauto. }
      destruct (pm_m d3) as [[|m]|] eqn:Em; auto. apply KK; eauto. }
    clear E4. destruct G4 as (F4 & S4 & T4 & O4 & r4 & K4). assert (F14 := pframe_trans X _ _ _ F13 F4).
    assert (C4 : pcleared d4) by (eapply pcleared_ops; [apply (pfr_infer X d3 d4 F4)|exact O4|auto]).
    assert (FAIL4 : forall e, (d4, Err e) = (d', x) -> pframe X d d' /\ pm_solver d' = pm_solver d /\ pm_s d' = pm_s d /\ pcleared d' /\
      (forall Qs Zs Us, x = Ok (Qs, Zs, Us) -> exists r, pprocessed d d' mus states lhs (Some us) r Qs Zs Us)).
    { intros e K. injection K as <- <-. split; auto. split; [congruence|]. split; [congruence|]. split; auto. discriminate. }
    destruct x4 as [[]|e]; cbn [pseq] in E; [|eapply FAIL4; eauto].
    destruct (K4 eq_refl) as (m & Em & I4). clear K4.
    destruct (negb (length (map atleast_2d us) =? length mus)) eqn:D1; cbn [pseq] in E; [eapply FAIL4; eauto|].
    destruct (negb (all_rows (pm_m d4) (map atleast_2d us))) eqn:D2; cbn [pseq] in E; [eapply FAIL4; eauto|].
    destruct (negb (same_cols (map atleast_2d us) (map atleast_2d states))) eqn:D3; cbn [pseq] in E; [eapply FAIL4; eauto|].
    apply negb_false_iff in D1, D2, D3. rewrite map_length in D1. apply Nat.eqb_eq in D1. rewrite Em in D2.
    injection E as <- <-. split; auto. split; [congruence|]. split; [congruence|]. split; auto. intros Qs Zs Us Hx.
    match type of Hx with bind ?t _ = _ => destruct t as [Zs'|] eqn:ES; [|discriminate] end. cbn [bind] in Hx. injection Hx as <- <- <-.
    exists r. constructor; auto; try congruence.
    + apply (rowsok_ops d3); auto.
    + intros _. exists us, m. split; auto. rewrite map_map. repeat (split; [solve [auto]|]). auto.
    + rewrite O4. exists p. auto.
  - cbn [pseq] in E. injection E as <- <-. split; auto. split; [congruence|]. split; [congruence|]. split; auto. intros Qs Zs Us Hx.
    match type of Hx with bind ?t _ = _ => destruct t as [Zs'|] eqn:ES; [|discriminate] end. cbn [bind] in Hx. injection Hx as <- <- <-.
    exists r. constructor; auto; try congruence. exists p. auto. Qed.

Lemma all_rows_spec r l : all_rows (Some r) l = true -> Forall (fun A => nrows A = r) l.
Proof. unfold all_rows. rewrite forallb_forall, Forall_forall. intros H A HA. specialize (H A HA). cbn in H. apply Nat.eqb_eq in H. auto. Qed.
Lemma same_cols_spec l : forall l', same_cols l l' = true -> map ncols l = map ncols l'.
Proof. unfold same_cols. induction l as [|a l IH]; intros [|b l'] H; cbn in H; try discriminate; auto. apply andb_prop in H. destruct H as [H1 H2]. apply andb_prop in H2. destruct H2 as [H2 H3].
  cbn. f_equal; [apply Nat.eqb_eq; auto|]. apply IH. apply andb_true_intro; auto. Qed.
Lemma good_blocks r l : Forall good_arr l -> all_rows (Some r) (map atleast_2d l) = true -> Forall2 (is_mat r) (map ncols (map atleast_2d l)) (map atleast_2d l) /\ Forall (lt 0) (map ncols (map atleast_2d l)) /\ (l <> [] -> 0 < r).
Proof. intros HG HR. apply all_rows_spec in HR. rewrite Forall_map in HR. assert (HB : Forall (fun a => good_arr a /\ nrows (atleast_2d a) = r) l) by (apply Forall_and; auto). clear HG HR.
  split; [|split].
  - induction HB as [|a l [H1 H2] HB IH]; cbn; constructor; auto. destruct (good_2d a H1) as (_ & _ & H3). rewrite H2 in H3. exact H3.
  - induction HB as [|a l [H1 H2] HB IH]; cbn; constructor; auto. destruct (good_2d a H1) as (_ & H3 & _). exact H3.
  - intros Hne. destruct HB as [|a l [H1 H2] HB]; [congruence|]. destruct (good_2d a H1) as (H3 & _). lia. Qed.

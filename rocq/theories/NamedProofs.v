(* NamedProofs.v -- named operators and str(model): proofs. *)
From Coq Require Import String Ascii DecimalString DecimalNat ZArith Lia Lra List.
From Verif Require Import LinAlg MatAlg MonoLists MonoInv MonoStmts MonoFinal MonoEx ParaBest.
From Verif Require Import SpecNamed.
#[local] Open Scope nat_scope.
#[local] Open Scope list_scope.

(* ---- named operators ----------------------------------------------------------------------------------------------------- *)
Lemma find_first {A} (p : A -> bool) l : match find p l with
  | Some a => exists i, nth_error l i = Some a /\ p a = true /\ forall j b, j < i -> nth_error l j = Some b -> p b = false
  | None => forall a, In a l -> p a = false end.
Proof. induction l as [|b l IH]; cbn; [intros a []|]. destruct (p b) eqn:E.
  - exists 0. split; auto. split; auto. intros j c Hj. lia.
  - destruct (find p l) as [a|].
    + destruct IH as (i & H1 & H2 & H3). exists (S i). split; auto. split; auto. intros [|j] c Hj Hc; [injection Hc as <-; auto|]. apply (H3 j); auto. lia.
    + intros a [<-|Ha]; auto. Qed.
Lemma cls_neq a b : cls_eqb a b = false <-> a <> b.
Proof. split; [intros E ->; assert (cls_eqb b b = true) by (apply cls_eqb_eq; auto); congruence|]. intros H. destruct (cls_eqb a b) eqn:E; auto. apply cls_eqb_eq in E. contradiction. Qed.
Lemma named_first c d : match of_type c d with
  | Some o => exists i, first_at c (m_ops d) i o
  | None => forall o, In o (m_ops d) -> mo_cls o <> c end.
Proof. unfold of_type. assert (H := find_first (fun o => cls_eqb (mo_cls o) c) (m_ops d)). destruct (find _ _) as [o|].
  - destruct H as (i & H1 & H2 & H3). exists i. split; auto. split; [apply cls_eqb_eq; auto|]. intros j o' Hj Ho. apply cls_neq. apply (H3 j); auto.
  - intros o Ho. apply cls_neq. auto. Qed.

Lemma of_type_at c d i o : first_at c (m_ops d) i o -> of_type c d = Some o.
Proof. intros (H1 & H2 & H3). unfold of_type. revert i H1 H3. induction (m_ops d) as [|b l IH]; intros [|i] H1 H3; try discriminate; cbn.
  - injection H1 as <-. rewrite (proj2 (cls_eqb_eq _ _) H2). auto.
  - rewrite (proj2 (cls_neq _ _) (H3 0 b ltac:(lia) eq_refl)). apply (IH i); auto. intros j o' Hj Ho. apply (H3 (S j)); auto. lia. Qed.
Lemma first_index c (l : list mop) l' i o : map mo_cls l' = map mo_cls l -> first_at c l i o -> exists o', first_at c l' i o'.
Proof. intros HC (H1 & H2 & H3). assert (E : nth_error (map mo_cls l') i = Some c) by (rewrite HC, nth_error_map, H1; cbn; congruence).
  rewrite nth_error_map in E. destruct (nth_error l' i) as [o'|] eqn:E'; [|discriminate]. injection E as E. exists o'. split; auto. split; auto.
  intros j oj Hj Ej. assert (K : nth_error (map mo_cls l) j = Some (mo_cls oj)) by (rewrite <- HC, nth_error_map, Ej; auto). rewrite nth_error_map in K.
  destruct (nth_error l j) as [ok|] eqn:Ek; [|discriminate]. injection K as K. rewrite <- K. apply (H3 j); auto. Qed.
Lemma named_fit X d states lhs inputs d' s c : lsx_ok X -> reach X d -> m_intrusive d = false -> good_arr states -> good_arr lhs -> valid_in inputs ->
  fit X d states lhs inputs = (d', Ok tt) -> m_solver d = Some s ->
  match of_type c d, of_type c d' with
  | Some o, Some o' => exists i, first_at c (m_ops d) i o /\ first_at c (m_ops d') i o' /\ mo_ent o' <> None /\ (In i (m_known d) -> o' = o)
  | None, None => True
  | _, _ => False
  end.
Proof. intros HX HR Hi G1 G2 G3 E Es. destruct (fit_best X d states lhs inputs d' s HX HR Hi G1 G2 G3 E Es) as ((r & m & k & O & B1 & B2 & _ & _ & _ & BO & _) & S1 & S2 & S3 & S4 & S5 & S6).
  assert (HT : forall o, In o (m_ops d') -> mo_ent o <> None).
  { unfold operator_matrix, check_trained in BO. rewrite B1, B2 in BO. rewrite Bool.andb_false_r in BO. destruct (existsb uncal (m_ops d')) eqn:EU; [discriminate|].
    intros o Ho En. assert (K : existsb uncal (m_ops d') = true) by (apply existsb_exists; exists o; split; auto; unfold uncal; rewrite En; auto). congruence. }
  assert (N1 := named_first c d). assert (N2 := named_first c d'). destruct (of_type c d) as [o|].
  - destruct N1 as (i & F). destruct (first_index c _ (m_ops d') i o S5 F) as (o' & F'). rewrite (of_type_at c d' i o' F') in *. exists i. split; auto. split; auto.
    destruct F as (F1 & _), F' as (F1' & _). split; [apply HT, (nth_error_In _ i); auto|]. intros Hk. specialize (S6 i Hk). congruence.
  - destruct (of_type c d') as [o'|]; auto. destruct N2 as (i & F). destruct (first_index c _ (m_ops d) i o' (eq_sym S5) F) as (o & F1 & F2 & _). apply (N1 o); auto. apply (nth_error_In _ i); auto. Qed.

(* rhs is the sum of the named operators *)
Lemma find_app_nodup (l : list mop) o c : ~ In (mo_cls o) (map mo_cls l) -> c = mo_cls o -> find (fun o => cls_eqb (mo_cls o) c) l = None.
Proof. intros H ->. induction l as [|b l IH]; auto. cbn in *. rewrite (proj2 (cls_neq _ _)) by (intros K; apply H; auto). apply IH. auto. Qed.
Definition named_list (l : list mop) : list (option mop) :=
  map (fun c => find (fun o => cls_eqb (mo_cls o) c) l) [CConst; CLin; CPoly Quadratic; CPoly Cubic; CInp; CStIn].
Lemma named_total (F : mop -> R) l : NoDup (map mo_cls l) -> (forall o, In o l -> mo_cls o <> CPoly Quartic) ->
  lsum (map (fun a => match a with Some o => F o | None => 0%R end) (named_list l)) = lsum (map F l).
Proof. induction l as [|o l IH]; intros HN HQ.
  - unfold named_list, lsum. cbn [map find fold_right]. lra.
  - cbn [map] in HN. apply NoDup_cons_iff in HN. destruct HN as [Hn HN]. cbn [map]. rewrite lsum_cons. rewrite <- IH by (auto; intros; apply HQ; right; auto). clear IH.
    assert (HO : mo_cls o <> CPoly Quartic) by (apply HQ; left; auto).
    assert (HF : forall c, find (fun o => cls_eqb (mo_cls o) c) (o :: l) = if cls_eqb (mo_cls o) c then Some o else find (fun o => cls_eqb (mo_cls o) c) l) by reflexivity.
    assert (HZ := find_app_nodup l o (mo_cls o) Hn eq_refl).
    unfold named_list. cbn [map]. rewrite !lsum_cons, !HF.
    destruct (mo_cls o) as [| |[| |]| |]; try congruence; cbn [cls_eqb degree_eqb]; rewrite HZ; lra. Qed.
Lemma named_sum X d r q u : trained X d r -> is_vec r q -> input_for d u -> NoDup (map mo_cls (m_ops d)) -> (forall o, In o (m_ops d) -> mo_cls o <> CPoly Quartic) ->
  exists ys y, Forall2 (contributes r q u) [c_ d; A_ d; H_ d; G_ d; B_ d; N_ d] ys /\
    rhs d (V q) (option_map V u) = Ok (V y) /\ is_vec r y /\ forall i, i < r -> vget y i = lsum (map (fun yo => vget yo i) ys).
Proof. intros HT Hq HU HN HQ. destruct (C29_sum X d r q u HT Hq HU) as (ys & y & HF & E & Hy & HS).
  set (W := fun o => match op_apply o (V q) (option_map V u) with Ok (V y) => y | _ => [] end).
  assert (EW : forall o, In o (m_ops d) -> op_apply o (V q) (option_map V u) = Ok (V (W o)) /\ is_vec r (W o)).
  { intros o Ho. unfold W. clear - HF Ho. induction HF as [|o' y' l ys [H1 H2] HF IH]; [destruct Ho|]. destruct Ho as [->|Ho]; [rewrite H1; auto|auto]. }
  assert (EY : ys = map W (m_ops d)).
  { unfold W. clear - HF. induction HF as [|o' y' l ys [H1 H2] HF IH]; auto. cbn. rewrite H1, <- IH. auto. }
  set (Z := fun a : option mop => match a with Some o => W o | None => repeat 0%R r end).
  exists (map Z (named_list (m_ops d))), y. split; [|split; auto; split; auto].
  - change [c_ d; A_ d; H_ d; G_ d; B_ d; N_ d] with (named_list (m_ops d)).
    assert (HI : forall a, In a (named_list (m_ops d)) -> match a with Some o => In o (m_ops d) | None => True end).
    { intros a Ha. unfold named_list in Ha. apply in_map_iff in Ha. destruct Ha as (c & <- & _). destruct (find _ _) eqn:Ef; auto. apply find_some in Ef. tauto. }
    revert HI. generalize (named_list (m_ops d)). intros l. induction l as [|a l IH]; intros HI; constructor; [|apply IH; intros b Hb; apply HI; right; auto].
    specialize (HI a (or_introl eq_refl)). destruct a as [o|]; cbn [Z].
    + destruct (EW o HI) as [K1 K2]. split; auto.
    + split; [apply repeat_length|]. intros i Hi. unfold vget. apply nth_repeat.
  - intros i Hi. rewrite (HS i Hi), EY, map_map. rewrite <- (named_total (fun o => vget (W o) i)) by auto. rewrite map_map. f_equal. apply map_ext. intros [o|]; cbn [Z]; auto.
    unfold vget. rewrite nth_repeat. auto. Qed.

(* letters *)
Lemma abbreviation_letters l c : abbreviation l = Some c <-> In (l, c) letters.
Proof. unfold abbreviation, letters. split.
  - repeat match goal with |- context [String.eqb l ?s] => destruct (String.eqb_spec l s) as [->|] end; intros [= <-]; cbn; tauto.
  - cbn. intros [H|[H|[H|[H|[H|[H|[]]]]]]]; injection H as <- <-; reflexivity. Qed.
Lemma letters_inj l l' c : In (l, c) letters -> In (l', c) letters -> l = l'.
Proof. cbn. intros H H'. repeat (destruct H as [H|H]; [injection H as <- <-; repeat (destruct H' as [H'|H']; [try discriminate H'; injection H' as <-; reflexivity|]); destruct H'|]). destruct H. Qed.
Definition bare (c : cls) : mop := {| mo_cls := c; mo_ent := None |}.
Lemma resolve_letters ls cs hi : Forall2 (fun l c => In (l, c) letters) ls cs -> exists h, resolve hi (map AStr ls) = (h, Ok (map bare cs)).
Proof. intros H. revert hi. induction H as [|l c ls cs H HF IH]; intros hi; cbn [map resolve resolve1]; [eauto|].
  rewrite (proj2 (abbreviation_letters l c) H). destruct (IH (hi || has_inputs c)) as (h & E). cbn [mo_cls]. rewrite E. eauto. Qed.
Lemma resolve_letters_inv ls hi h ops : resolve hi (map AStr ls) = (h, Ok ops) -> exists cs, Forall2 (fun l c => In (l, c) letters) ls cs /\ ops = map bare cs.
Proof. intros E. apply resolve_ok in E. remember (map AStr ls) as a. revert ls Heqa. induction E as [|a o args ops H HF IH]; intros [|l ls] Ha; try discriminate.
  - exists []. auto.
  - injection Ha as -> ->. destruct (IH ls eq_refl) as (cs & H1 & ->). cbn in H. destruct (abbreviation l) as [c|] eqn:El; [|discriminate]. injection H as <-. exists (c :: cs). split; auto.
    constructor; auto. apply abbreviation_letters; auto. Qed.
Lemma bare_lists cs : filter uncal (map bare cs) = map bare cs /\ map mo_cls (map bare cs) = cs /\ entries_of (map bare cs) = [] /\ indices (fun o => negb (uncal o)) (map bare cs) = [] /\
  indices uncal (map bare cs) = seq 0 (length cs).
Proof. split; [induction cs; cbn; congruence|]. split; [rewrite map_map; apply map_id|]. split; [induction cs; auto|].
  assert (K : forall i, nth_error (map bare cs) i = option_map bare (nth_error cs i)) by (intros; apply nth_error_map).
  assert (G : forall (f : nat -> bool) l, (forall i, In i l -> f i = true) -> filter f l = l).
  { intros f l. induction l as [|a l IHl]; cbn; auto. intros H. rewrite (H a) by auto. f_equal. apply IHl. intros; apply H; auto. }
  assert (G' : forall (f : nat -> bool) l, (forall i, In i l -> f i = false) -> filter f l = []).
  { intros f l. induction l as [|a l IHl]; cbn; auto. intros H. rewrite (H a) by auto. apply IHl. intros; apply H; auto. }
  unfold indices. rewrite map_length. split; [apply G'|apply G]; intros i Hi; apply in_seq in Hi; rewrite K; destruct (nth_error cs i) eqn:E; auto; apply nth_error_None in E; lia. Qed.
Lemma set_letters ls cs d : ls <> [] -> Forall2 (fun l c => In (l, c) letters) ls cs -> NoDup cs -> exists d', set_operators (map AStr ls) d = (d', Ok tt) /\ m_ops d' = map bare cs /\
  m_infer d' = seq 0 (length cs) /\ m_known d' = [] /\ m_frozen d' = m_frozen d /\ m_intrusive d' = false /\ m_kind d' = m_kind d.
Proof. intros Hne HF HN. unfold set_operators. destruct (map AStr ls) as [|a t] eqn:Ea; [destruct ls; [congruence|discriminate]|]. rewrite <- Ea.
  destruct (resolve_letters ls cs false HF) as (h & E). rewrite E. destruct (bare_lists cs) as (B1 & B2 & B3 & B4 & B5). rewrite B1, B2. rewrite (proj2 (duplicates_nodup cs) HN).
  unfold state_dim. rewrite B3. cbn [map one_of].
  assert (EI : exists m, input_dim (map bare cs) = Ok m).
  { unfold input_dim. destruct (filter takes_input (map bare cs)) as [|o l] eqn:Ef; [eauto|]. assert (K : entries_of (o :: l) = []).
    { rewrite <- Ef. clear. induction cs as [|c cs IH]; auto. cbn. destruct (takes_input (bare c)); auto. }
    rewrite K. cbn. eauto. }
  destruct EI as (m & ->). eexists. split; [reflexivity|]. cbn. rewrite B4, B5. repeat (split; auto). rewrite seq_length.
  destruct cs; auto. inversion HF; subst; congruence. Qed.
Lemma letters_nodup ls cs : Forall2 (fun l c => In (l, c) letters) ls cs -> (NoDup ls <-> NoDup cs).
Proof. intros H. assert (KL : forall l, In l ls -> exists c, In c cs /\ In (l, c) letters). { clear - H. induction H as [|l c ls cs H HF IH]; intros x []; [subst; exists c; cbn; auto|]. destruct (IH x) as (y & ? & ?); auto. exists y; cbn; auto. }
  clear KL. induction H as [|l c ls cs H HF IH]; [split; constructor|].
  assert (E : In l ls <-> In c cs).
  { clear IH. induction HF as [|l' c' ls cs H' HF IH]; [tauto|]. cbn. rewrite IH. assert (l' = l <-> c' = c); [|tauto]. split; intros ->.
    - apply abbreviation_letters in H. apply abbreviation_letters in H'. congruence.
    - apply (letters_inj _ _ c); auto. }
  rewrite !NoDup_cons_iff, E, IH. tauto. Qed.
Lemma letters_model k ls : (exists d, mk_model k false (map AStr ls) SNone = Ok d) <-> ls <> [] /\ NoDup ls /\ forall l, In l ls -> exists c, In (l, c) letters.
Proof. split.
  - intros (d & E). unfold mk_model, seqm in E. destruct (set_operators (map AStr ls) (blank k false)) as [d1 x] eqn:E1. destruct x as [[]|]; [|discriminate].
    destruct ls as [|l0 ls0]; [discriminate|]. split; [discriminate|]. unfold set_operators in E1. cbn [map] in E1. change (AStr l0 :: map AStr ls0) with (map AStr (l0 :: ls0)) in E1.
    destruct (resolve false (map AStr (l0 :: ls0))) as [h x] eqn:ER. destruct x as [ops|]; [|discriminate]. destruct (resolve_letters_inv _ _ _ _ ER) as (cs & HF & ->).
    destruct (bare_lists cs) as (B1 & B2 & _). rewrite B1, B2 in E1. destruct (duplicates cs) eqn:ED; [discriminate|]. apply duplicates_nodup in ED. split; [apply (letters_nodup _ cs HF); auto|].
    clear - HF. induction HF as [|l c ls cs H HF IH]; intros x []; subst; eauto.
  - intros (Hne & HN & HL). assert (HF : exists cs, Forall2 (fun l c => In (l, c) letters) ls cs).
    { clear - HL. induction ls as [|l ls IH]; [exists []; auto|]. destruct (HL l) as (c & Hc); [left; auto|]. destruct IH as (cs & Hcs); [intros; apply HL; right; auto|]. exists (c :: cs); auto. }
    destruct HF as (cs & HF). destruct (set_letters ls cs (blank k false) Hne HF (proj1 (letters_nodup ls cs HF) HN)) as (d' & E & _ & _ & _ & E4 & E5 & _).
    unfold mk_model, seqm. rewrite E. unfold set_solver. rewrite E4, E5. cbn. eauto. Qed.
Lemma letters_named k ls s d : mk_model k false (map AStr ls) s = Ok d ->
  (exists cs, Forall2 (fun l c => In (l, c) letters) ls cs /\ m_ops d = map (fun c => {| mo_cls := c; mo_ent := None |}) cs) /\
  m_infer d = seq 0 (length ls) /\ m_known d = [] /\
  forall l c, In (l, c) letters -> (In l ls -> of_type c d = Some {| mo_cls := c; mo_ent := None |}) /\ (~ In l ls -> of_type c d = None).
Proof. intros E. unfold mk_model, seqm in E. destruct (set_operators (map AStr ls) (blank k false)) as [d1 x] eqn:E1. destruct x as [[]|]; [|discriminate].
  destruct ls as [|l0 ls0]; [discriminate|]. assert (E1' := E1). unfold set_operators in E1. cbn [map] in E1. change (AStr l0 :: map AStr ls0) with (map AStr (l0 :: ls0)) in E1.
  destruct (resolve false (map AStr (l0 :: ls0))) as [h x] eqn:ER. destruct x as [ops|]; [|discriminate]. destruct (resolve_letters_inv _ _ _ _ ER) as (cs & HF & ->).
  destruct (bare_lists cs) as (B1 & B2 & _). rewrite B1, B2 in E1. destruct (duplicates cs) eqn:ED; [discriminate|]. apply duplicates_nodup in ED. clear E1.
  destruct (set_letters (l0 :: ls0) cs (blank k false) ltac:(discriminate) HF ED) as (d' & E2 & D1 & D2 & D3 & _). rewrite E2 in E1'. injection E1' as <-.
  assert (ES : m_ops d = m_ops d' /\ m_infer d = m_infer d' /\ m_known d = m_known d').
  { destruct (set_solver s d') as [d2 y] eqn:Es. destruct y as [u|]; [|discriminate]. injection E as <-. unfold set_solver in Es.
    repeat match type of Es with
    | context [if ?b then _ else _] => destruct b
    | context [match ?x with SNone => _ | _ => _ end] => destruct x
    end; try discriminate; injection Es as <- <-; auto. }
  destruct ES as (ES1 & ES2 & ES3). rewrite ES1, ES2, ES3, D1, D2, D3. split; [exists cs; auto|]. split; [f_equal; clear - HF; induction HF; cbn in *; congruence|]. split; auto.
  intros l c Hlc. assert (KI : In l (l0 :: ls0) <-> In c cs).
  { clear - HF Hlc. induction HF as [|l' c' ls cs H' HF IH]; [tauto|]. cbn. rewrite IH. assert (l' = l <-> c' = c); [|tauto]. split; intros ->.
    - apply abbreviation_letters in Hlc. apply abbreviation_letters in H'. congruence.
    - apply (letters_inj _ _ c); auto. }
  unfold of_type. rewrite ES1, D1. split; intros Hl.
  - apply KI in Hl. clear - Hl. induction cs as [|c' cs IH]; [destruct Hl|]. cbn [map find bare mo_cls]. destruct (cls_eqb c' c) eqn:Ec; [apply cls_eqb_eq in Ec; subst; auto|]. apply IH.
    destruct Hl as [->|]; auto. assert (cls_eqb c c = true) by (apply cls_eqb_eq; auto). congruence.
  - assert (Hn : ~ In c cs) by tauto. clear - Hn. induction cs as [|c' cs IH]; auto. cbn [map find bare mo_cls]. rewrite (proj2 (cls_neq c' c)) by (intros ->; apply Hn; left; auto). apply IH. intros K; apply Hn; right; auto. Qed.

(* evaluating a parametric model evaluates its named operators *)
Lemma pop_eval_cls o mu e : snd (pop_eval o mu) = Ok e -> mo_cls e = pcls o.
Proof. destruct o as [o|a|t]; cbn; [intros [= <-]; auto| |].
  - destruct (aff_evaluate a mu) as [a' [x|]]; cbn; [intros [= <-]; auto|discriminate].
  - destruct (i_evaluate t mu); cbn; [intros [= <-]; auto|discriminate]. Qed.
Lemma frozen_ops k es e : mk_model k true (map AOp es) SNone = Ok e -> m_ops e = es.
Proof. unfold mk_model, seqm. intros E. destruct (set_operators (map AOp es) (blank k true)) as [d x] eqn:E1. destruct x as [[]|]; [|discriminate].
  unfold set_operators in E1. destruct (map AOp es) as [|a t] eqn:Ea; [discriminate|]. rewrite <- Ea in E1. rewrite MonoRhs.resolve_AOp in E1. cbn iota in E1.
  destruct (duplicates _); [discriminate|]. destruct (state_dim es) as [r|]; [|discriminate]. destruct (input_dim es) as [m|]; [|discriminate]. injection E1 as <-.
  unfold set_solver in E. cbn in E. injection E as <-. auto. Qed.
Lemma named_evaluate d mu e c : snd (pevaluate d mu) = Ok e -> match pof_type c d, of_type c e with
  | Some o, Some o' => snd (pop_eval o mu) = Ok o'
  | None, None => True
  | _, _ => False
  end.
Proof. unfold pevaluate. destruct (peval_ops (pm_ops d) mu) as [l x] eqn:EP. cbn. destruct x as [es|]; [|discriminate]. cbn [bind]. intros E. apply frozen_ops in E.
  assert (HF : Forall2 (fun o e => snd (pop_eval o mu) = Ok e) (pm_ops d) es) by (apply peval_ops_inv; rewrite EP; auto).
  unfold pof_type, of_type. rewrite E. clear - HF. induction HF as [|o e l es H HF IH]; cbn; auto. rewrite (pop_eval_cls _ _ _ H). destruct (cls_eqb (pcls o) c); auto. Qed.

(* a known operator hides a learned one *)
Definition dH (x : option op) (r : option nat) (s : lsq) : model := {| m_kind := KContinuous; m_frozen := false; m_ops := [knw (OLin [[3]]%R); {| mo_cls := CLin; mo_ent := x |}];
  m_infer := [1]; m_known := [0]; m_hasin := false; m_r := r; m_m := Some 0; m_intrusive := false; m_solver := Some s |}.
Lemma dH_reach : reach X0 (dH None (Some 1) new_plain).
Proof. apply (reach_new X0 KContinuous false [AOp (knw (OLin [[3]]%R)); AStr "A"%string] SNone); [|exact I|reflexivity]. constructor; [|repeat constructor].
  intros e [= <-]. split; auto. exists 1, 1. split; [lia|]. split; [lia|]. split; repeat constructor. Qed.
Lemma dH_fit : fit X0 (dH None (Some 1) new_plain) (V [1]%R) (V [5]%R) None = (dH (Some (OLin [[2]]%R)) (Some 1) s12, Ok tt).
Proof. unfold fit. change (m_frozen (dH None (Some 1) new_plain)) with false. change (m_intrusive (dH None (Some 1) new_plain)) with false. cbv iota.
  assert (E : fit_solver X0 (dH None (Some 1) new_plain) (V [1]%R) (V [5]%R) None = (dH None (Some 1) (plain_of [[1]]%R [[5 - 3 * 1]]%R), Ok tt)) by reflexivity. rewrite E. cbn [seqm].
  replace (plain_of [[1]]%R [[5 - 3 * 1]]%R) with s12 by (unfold s12; do 3 f_equal; ring). unfold refit. cbn [m_intrusive dH m_solver]. rewrite solve12. reflexivity. Qed.
Lemma learned_hidden : exists X d states lhs inputs d' i o', lsx_ok X /\ reach X d /\ fit X d states lhs inputs = (d', Ok tt) /\
  In i (m_infer d) /\ nth_error (m_ops d') i = Some o' /\ mo_cls o' = CLin /\ A_ d' <> Some o'.
Proof. exists X0, (dH None (Some 1) new_plain), (V [1]%R), (V [5]%R), None, (dH (Some (OLin [[2]]%R)) (Some 1) s12), 1, (knw (OLin [[2]]%R)).
  split; [exact X0_ok|]. split; [exact dH_reach|]. split; [exact dH_fit|]. split; [cbn; auto|]. split; [reflexivity|]. split; [reflexivity|]. cbn. intros [= K]. lra. Qed.

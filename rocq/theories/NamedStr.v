(* NamedStr.v -- str(model) determines what it shows: proofs. *)
From Coq Require Import String Ascii DecimalString DecimalNat ZArith Lia List.
From Verif Require Import MonoFinal MonoStmts.
From Verif Require Import SpecNamed.
#[local] Open Scope nat_scope.
#[local] Open Scope list_scope.

(* the character ch is not in the string *)
Fixpoint free (ch : ascii) (s : string) : bool := match s with EmptyString => true | String a s' => negb (Ascii.eqb a ch) && free ch s' end.
Lemma free_app ch a b : free ch (a ++ b)%string = free ch a && free ch b.
Proof. induction a as [|x a IH]; cbn; auto. rewrite IH. apply Bool.andb_assoc. Qed.
Lemma cut_at ch a b s t : free ch a = true -> free ch b = true -> (a ++ String ch s = b ++ String ch t)%string -> a = b /\ s = t.
Proof. revert b. induction a as [|x a IH]; intros [|y b] Ha Hb E; cbn in *.
  - injection E as <-. auto.
  - injection E as <- _. rewrite Ascii.eqb_refl in Hb. discriminate.
  - injection E as -> _. rewrite Ascii.eqb_refl in Ha. discriminate.
  - injection E as <- E. apply Bool.andb_true_iff in Ha, Hb. destruct (IH b) as [-> ->]; tauto. Qed.
Lemma app_inj (a s t : string) : (a ++ s = a ++ t)%string -> s = t.
Proof. induction a; cbn; auto. intros [= E]. auto. Qed.
Lemma app_assoc (a b c : string) : ((a ++ b) ++ c = a ++ (b ++ c))%string.
Proof. induction a as [|x a IH]; cbn; auto. f_equal. auto. Qed.
Lemma app_nil (a : string) : (a ++ "" = a)%string. Proof. induction a as [|x a IH]; cbn; auto. f_equal. auto. Qed.

(* numbers *)
Lemma dec_inj n m : dec n = dec m -> n = m.
Proof. unfold dec. intros E. apply Unsigned.to_uint_inj. assert (K : forall d, NilEmpty.uint_of_string (NilEmpty.string_of_uint d) = Some d) by apply NilEmpty.usu.
  assert (K1 := K (Nat.to_uint n)). rewrite E, K in K1. congruence. Qed.
Definition digits : list ascii := ["0"; "1"; "2"; "3"; "4"; "5"; "6"; "7"; "8"; "9"]%char.
Lemma uint_free ch d : ~ In ch digits -> free ch (NilEmpty.string_of_uint d) = true.
Proof. intros H. assert (K : forall a, In a digits -> negb (Ascii.eqb a ch) = true). { intros a Ha. destruct (Ascii.eqb_spec a ch) as [->|]; auto. }
  induction d; cbn [NilEmpty.string_of_uint free]; auto; rewrite IHd, K; auto; cbn; tauto. Qed.
Lemma dec_free ch n : ~ In ch digits -> free ch (dec n) = true. Proof. intros. apply uint_free; auto. Qed.
Definition nlc : ascii := ascii_of_nat 10.
Lemma nl_not_digit : ~ In nlc digits. Proof. cbn. intuition discriminate. Qed.
Lemma comma_not_digit : ~ In ","%char digits. Proof. cbn. intuition discriminate. Qed.
Lemma N_not_digit : ~ In "N"%char digits. Proof. cbn. intuition discriminate. Qed.
Lemma odec_inj a b : odec a = odec b -> a = b.
Proof. assert (K : forall n, dec n <> "None"%string). { intros n E. assert (F := dec_free "N" n N_not_digit). rewrite E in F. discriminate. }
  destruct a, b; cbn; intros E; auto; [f_equal; apply dec_inj; auto|exfalso; eapply K; eauto|exfalso; eapply K; symmetry; eauto]. Qed.
Lemma odec_free a : free nlc (odec a) = true. Proof. destruct a; [apply dec_free, nl_not_digit|reflexivity]. Qed.
Lemma dec_snoc_inj n m c : ~ In c digits -> (dec n ++ String c "" = dec m ++ String c "")%string -> n = m.
Proof. intros H E. apply cut_at in E; [apply dec_inj; tauto| |]; apply dec_free; auto. Qed.

(* shapes *)
Definition shape_ok (s : option (list nat)) : Prop := match s with None | Some [_] | Some [_; _] => True | _ => False end.
Lemma shape_of_ok o : shape_ok (shape_of o).
Proof. unfold shape_of. destruct (mo_ent o) as [[]|]; exact I. Qed.
Lemma close_not_digit : ~ In ")"%char digits. Proof. cbn. intuition discriminate. Qed.
Lemma shape_free s : shape_ok s -> free nlc (shape_str s) = true.
Proof. assert (N := nl_not_digit). destruct s as [[|a [|b [|? ?]]]|]; cbn [shape_ok]; try tauto; intros _; unfold shape_str; cbn [join map String.concat];
  repeat rewrite free_app; rewrite ?dec_free by auto; reflexivity. Qed.
Lemma shape_inj s t : shape_ok s -> shape_ok t -> shape_str s = shape_str t -> s = t.
Proof. assert (C := comma_not_digit). destruct s as [[|a [|b [|? ?]]]|], t as [[|a' [|b' [|? ?]]]|]; cbn [shape_ok]; try tauto; intros _ _ E; unfold shape_str in E; cbn [join map String.concat] in E; auto; try discriminate.
  - injection E as E. apply cut_at in E; try (apply dec_free; auto). destruct E as [E _]. apply dec_inj in E. congruence.
  - injection E as E. rewrite app_assoc in E. apply (cut_at "," (dec a) (dec a')) in E; try (apply dec_free; auto). destruct E as [_ E]. discriminate.
  - injection E as E. rewrite app_assoc in E. apply (cut_at "," (dec a) (dec a')) in E; try (apply dec_free; auto). destruct E as [_ E]. discriminate.
  - injection E as E. rewrite !app_assoc in E. apply (cut_at "," (dec a) (dec a')) in E; try (apply dec_free; auto). destruct E as [E1 E2]. apply dec_inj in E1.
    cbn in E2. injection E2 as E2. apply dec_snoc_inj in E2; [congruence|apply close_not_digit]. Qed.

(* the terms of the structure *)
Definition tm (k : kind) (c : cls) : string := op_term (state_label k) (input_label k) c.
Lemma tm_inj k c c' s t : (tm k c ++ s = tm k c' ++ t)%string -> c = c' /\ s = t.
Proof. destruct k, c as [| |[| |]| |], c' as [| |[| |]| |]; unfold tm; cbn; intros E; try discriminate E; inversion E; auto. Qed.
Lemma tm_nonempty k c s : (tm k c ++ s)%string <> ""%string.
Proof. destruct c as [| |[| |]| |]; discriminate. Qed.
Lemma join_tm k cs cs' : cs <> [] -> cs' <> [] -> join " + " (map (tm k) cs) = join " + " (map (tm k) cs') -> cs = cs'.
Proof. unfold join. revert cs'. induction cs as [|c cs IH]; intros [|c' cs'] H H' E; try congruence. destruct cs as [|c2 cs], cs' as [|c2' cs']; cbn [map String.concat] in E.
  - assert (K : (tm k c ++ "" = tm k c' ++ "")%string) by (rewrite !app_nil; auto). apply tm_inj in K. destruct K; congruence.
  - assert (K : (tm k c ++ "" = tm k c' ++ (" + " ++ String.concat " + " (map (tm k) (c2' :: cs'))))%string) by (rewrite app_nil; auto). apply tm_inj in K. destruct K; discriminate.
  - assert (K : (tm k c ++ (" + " ++ String.concat " + " (map (tm k) (c2 :: cs))) = tm k c' ++ "")%string) by (rewrite app_nil; auto). apply tm_inj in K. destruct K; discriminate.
  - apply (tm_inj k c c') in E. destruct E as [-> E]. apply app_inj in E. f_equal. apply IH; auto; discriminate. Qed.
Lemma tm_free k c : free nlc (tm k c) = true. Proof. destruct k, c as [| |[| |]| |]; reflexivity. Qed.
Lemma join_free k cs : free nlc (join " + " (map (tm k) cs)) = true.
Proof. induction cs as [|c cs IH]; auto. destruct cs as [|c2 cs]; [apply tm_free|]. unfold join in *. cbn [map String.concat] in *. rewrite !free_app, tm_free, IH. reflexivity. Qed.
Lemma structure_eq d : structure d = (lhs_label (m_kind d) ++ " = " ++ join " + " (map (tm (m_kind d)) (map mo_cls (m_ops d))))%string.
Proof. unfold structure. rewrite map_map. reflexivity. Qed.
Theorem structure_tells d1 d2 : m_ops d1 <> [] -> m_ops d2 <> [] -> m_kind d1 = m_kind d2 ->
  (structure d1 = structure d2 <-> map mo_cls (m_ops d1) = map mo_cls (m_ops d2)).
Proof. intros H1 H2 Hk. rewrite !structure_eq, Hk. split; [|intros ->; auto]. intros E. apply app_inj in E. apply app_inj in E. apply join_tm in E; auto.
  - destruct (m_ops d1); [congruence|discriminate].
  - destruct (m_ops d2); [congruence|discriminate]. Qed.

(* an operator *)
Lemma base_free c : free nlc (base_name c) = true. Proof. destruct c as [| |[| |]| |]; reflexivity. Qed.
Lemma name_inj a b : base_name a = base_name b -> a = b. Proof. destruct a as [| |[| |]| |], b as [| |[| |]| |]; cbn; intros E; auto; discriminate E. Qed.
Lemma op_lines_free o : Forall (fun l => free nlc l = true) (op_lines o).
Proof. unfold op_lines. apply Forall_app. split; [constructor; [apply base_free|constructor; [rewrite free_app, odec_free; reflexivity|constructor]]|].
  apply Forall_app. split; [destruct (has_inputs _); constructor; auto; rewrite free_app, odec_free; reflexivity|]. constructor; auto. rewrite free_app, shape_free by apply shape_of_ok. reflexivity. Qed.
(* lines joined by a newline and some blanks, followed by another line *)
Lemma lines_inj pad l l' s t : length l = length l' -> Forall (fun x => free nlc x = true) l -> Forall (fun x => free nlc x = true) l' ->
  (join (nl ++ pad) l ++ nl ++ s = join (nl ++ pad) l' ++ nl ++ t)%string -> l = l' /\ s = t.
Proof. unfold join. revert l'. induction l as [|x l IH]; intros [|x' l'] HL HF HF' E; try discriminate.
  - cbn in E. injection E as <-. auto.
  - inversion HF; subst. inversion HF'; subst. destruct l as [|y l], l' as [|y' l']; try discriminate; cbn [String.concat] in E.
    + apply cut_at in E; auto. destruct E as [-> ->]. auto.
    + rewrite !app_assoc in E. cbn [nl append] in E. apply (cut_at nlc x x') in E; auto. destruct E as [-> E]. apply app_inj in E.
      destruct (IH (y' :: l')) as [K ->]; auto. rewrite K. auto. Qed.
Lemma op_lines_length o o' : mo_cls o = mo_cls o' -> length (op_lines o) = length (op_lines o').
Proof. intros E. unfold op_lines. rewrite !app_length, E. destruct (has_inputs (mo_cls o')); reflexivity. Qed.
Lemma op_lines_inj o o' : op_lines o = op_lines o' -> mo_cls o = mo_cls o' /\ shape_of o = shape_of o'.
Proof. unfold op_lines. intros E. injection E as E1 E2 E3. apply name_inj in E1. split; auto. rewrite E1 in E3. apply app_inv_head_iff in E3 || (destruct (has_inputs (mo_cls o')); cbn in E3).
  all: injection E3; intros; apply shape_inj; try apply shape_of_ok; match goal with H : shape_str _ = shape_str _ |- _ => exact H | _ => idtac end. Qed.

(* a model *)
Lemma join_cons sep x l : l <> [] -> join sep (x :: l) = (x ++ sep ++ join sep l)%string.
Proof. destruct l; [congruence|]. reflexivity. Qed.
Definition block (o : mop) : string := ("  " ++ join (nl ++ "    ") (op_lines o))%string.
Lemma blocks_inj l1 l2 s1 s2 : map mo_cls l1 = map mo_cls l2 ->
  join (nl ++ "  ") (map block l1 ++ [s1]) = join (nl ++ "  ") (map block l2 ++ [s2]) -> map shape_of l1 = map shape_of l2 /\ s1 = s2.
Proof. revert l2. induction l1 as [|o1 l1 IH]; intros [|o2 l2] HC E; try discriminate; [auto|]. cbn [map] in HC. injection HC as HC1 HC2. cbn [map app] in E.
  rewrite !join_cons in E by (intros K; apply app_eq_nil in K; destruct K; discriminate). unfold block at 1 3 in E. rewrite !app_assoc in E. apply app_inj in E.
  apply lines_inj in E; [|apply op_lines_length; auto|apply op_lines_free|apply op_lines_free]. destruct E as [E1 E2]. apply op_lines_inj in E1. apply app_inj in E2.
  destruct (IH l2 HC2 E2) as [E3 ->]. cbn [map]. split; auto. destruct E1. congruence. Qed.
Lemma class_free d : free nlc (model_class d) = true.
Proof. unfold model_class. destruct (m_frozen d), (m_kind d); reflexivity. Qed.
Lemma class_inj d1 d2 : model_class d1 = model_class d2 -> m_kind d1 = m_kind d2 /\ m_frozen d1 = m_frozen d2.
Proof. unfold model_class. destruct (m_frozen d1), (m_kind d1), (m_frozen d2), (m_kind d2); cbn; intros E; auto; discriminate E. Qed.
Lemma structure_free d : free nlc (structure d) = true.
Proof. rewrite structure_eq, !free_app, join_free. destruct (m_kind d); reflexivity. Qed.
Lemma str_eq sl d : exists tail, tail = (join (nl ++ "  ") (map block (m_ops d) ++ ["solver: " ++ join (nl ++ "  ") (sl (m_solver d))]))%string /\
  model_str sl d = (model_class d ++ nl ++ "  structure: " ++ structure d ++ nl ++ "  state_dimension: " ++ odec (m_r d) ++ nl ++ "  input_dimension: " ++ odec (m_m d) ++ nl ++ "  operators:" ++ nl ++ "  " ++ tail)%string.
Proof. eexists. split; [reflexivity|]. unfold model_str. change (map (fun o => ("  " ++ join (nl ++ "    ") (op_lines o))%string) (m_ops d)) with (map block (m_ops d)). cbn [app].
  rewrite !join_cons by (try discriminate; intros K; apply app_eq_nil in K; destruct K; discriminate). rewrite !app_assoc. reflexivity. Qed.
Lemma str_forward sl d1 d2 : m_ops d1 <> [] -> m_ops d2 <> [] -> model_str sl d1 = model_str sl d2 -> look_alike sl d1 d2.
Proof. intros H1 H2 E. destruct (str_eq sl d1) as (t1 & T1 & E1). destruct (str_eq sl d2) as (t2 & T2 & E2). rewrite E1, E2 in E. clear E1 E2.
  apply (cut_at nlc) in E; try apply class_free. destruct E as [EC E]. apply class_inj in EC. destruct EC as [Hk Hf]. apply (app_inj "  structure: ") in E.
  apply (cut_at nlc) in E; try apply structure_free. destruct E as [ES E]. apply structure_tells in ES; auto. apply (app_inj "  state_dimension: ") in E.
  apply (cut_at nlc) in E; try apply odec_free. destruct E as [Er E]. apply odec_inj in Er. apply (app_inj "  input_dimension: ") in E.
  apply (cut_at nlc) in E; try apply odec_free. destruct E as [Em E]. apply odec_inj in Em.
  apply (app_inj ("  operators:" ++ nl ++ "  ")) in E. rewrite T1, T2 in E. destruct (blocks_inj _ _ _ _ ES E) as [Eb Es]. apply (app_inj "solver: ") in Es.
  repeat (split; auto). Qed.
Definition sound (d : model) : Prop := forall o e, In o (m_ops d) -> mo_ent o = Some e -> cls_of e = mo_cls o.
Lemma lines_same o o' : (forall e, mo_ent o = Some e -> cls_of e = mo_cls o) -> (forall e, mo_ent o' = Some e -> cls_of e = mo_cls o') ->
  mo_cls o = mo_cls o' -> shape_of o = shape_of o' -> op_lines o = op_lines o'.
Proof. intros H H' HC HS. assert (K : option_map op_rows (mo_ent o) = option_map op_rows (mo_ent o') /\ option_map op_inputs (mo_ent o) = option_map op_inputs (mo_ent o')).
  { unfold shape_of in HS. destruct (mo_ent o) as [e|], (mo_ent o') as [e'|]; auto.
    - specialize (H e eq_refl). specialize (H' e' eq_refl). rewrite <- H, <- H' in HC. destruct e, e'; cbn in HC; try discriminate HC; cbn in HS; injection HS; intros; cbn; split; congruence.
    - destruct e; discriminate.
    - destruct e'; discriminate. }
  destruct K as [K1 K2]. unfold op_lines. rewrite HC, HS, K1, K2. reflexivity. Qed.
Lemma str_backward sl d1 d2 : sound d1 -> sound d2 -> look_alike sl d1 d2 -> model_str sl d1 = model_str sl d2.
Proof. intros S1 S2 (Hk & Hf & Hr & Hm & Hc & Hs & Hl). unfold model_str. f_equal.
  assert (E1 : model_class d1 = model_class d2) by (unfold model_class; rewrite Hk, Hf; auto).
  assert (E2 : structure d1 = structure d2) by (rewrite !structure_eq, Hk, Hc; auto).
  rewrite E1, E2, Hr, Hm, Hl. do 2 f_equal. revert S1 S2 Hc Hs. unfold sound. generalize (m_ops d1), (m_ops d2). intros l1. induction l1 as [|o1 l1 IH]; intros [|o2 l2] S1 S2 Hc Hs; try discriminate; auto.
  cbn [map] in *. injection Hc as Hc1 Hc2. injection Hs as Hs1 Hs2. rewrite (lines_same o1 o2); auto; [|intros e He; apply (S1 o1); cbn; auto|intros e He; apply (S2 o2); cbn; auto].
  f_equal. apply IH; auto; intros o e Ho; [apply (S1 o e)|apply (S2 o e)]; cbn; auto. Qed.
Theorem str_tells X1 X2 sl d1 d2 : lsx_ok X1 -> lsx_ok X2 -> reach X1 d1 -> reach X2 d2 -> (model_str sl d1 = model_str sl d2 <-> look_alike sl d1 d2).
Proof. intros HX1 HX2 R1 R2. destruct (reach_consistent X1 d1 HX1 R1) as (N1 & C1 & _). destruct (reach_consistent X2 d2 HX2 R2) as (N2 & C2 & _). split; [apply str_forward; auto|].
  apply str_backward; intros o e Ho He; [destruct (C1 o e Ho He)|destruct (C2 o e Ho He)]; auto. Qed.
Theorem structure_shows X1 X2 d1 d2 : lsx_ok X1 -> lsx_ok X2 -> reach X1 d1 -> reach X2 d2 -> m_kind d1 = m_kind d2 ->
  (structure d1 = structure d2 <-> map mo_cls (m_ops d1) = map mo_cls (m_ops d2)).
Proof. intros HX1 HX2 R1 R2. destruct (reach_consistent X1 d1 HX1 R1) as (N1 & _). destruct (reach_consistent X2 d2 HX2 R2) as (N2 & _). apply structure_tells; auto. Qed.

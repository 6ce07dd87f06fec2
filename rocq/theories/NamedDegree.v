(* NamedDegree.v -- the equation that str(model) shows has every state and input factor of the operators. *)
From Coq Require Import String Ascii ZArith Lia List.
From Verif Require Import SpecNamed.
#[local] Open Scope nat_scope.
#[local] Open Scope list_scope.

Lemma occ_app a s t : occurrences a (s ++ t)%string = occurrences a s + occurrences a t.
Proof. induction s as [|b s IH]; cbn; auto. rewrite IH. lia. Qed.
Lemma occ_join a sep l : occurrences a sep = 0 -> occurrences a (join sep l) = fold_right Nat.add 0 (map (occurrences a) l).
Proof. intros H. unfold join. induction l as [|s [|t l] IH]; auto.
  - cbn. lia.
  - change (String.concat sep (s :: t :: l)) with (s ++ sep ++ String.concat sep (t :: l))%string. rewrite !occ_app, IH, H. cbn. lia. Qed.
Lemma structure_degrees d : m_kind d <> KSteady ->
  occurrences "q"%char (structure d) = 1 + fold_right Nat.add 0 (map (fun o => state_degree (mo_cls o)) (m_ops d)) /\
  occurrences "u"%char (structure d) = fold_right Nat.add 0 (map (fun o => input_degree (mo_cls o)) (m_ops d)).
Proof. intros HK. unfold structure. rewrite !occ_app, !occ_join, !map_map by reflexivity.
  assert (HQ : forall c, occurrences "q"%char (op_term (state_label (m_kind d)) (input_label (m_kind d)) c) = state_degree c) by (intros [| |[]| |]; destruct (m_kind d); try congruence; reflexivity).
  assert (HU : forall c, occurrences "u"%char (op_term (state_label (m_kind d)) (input_label (m_kind d)) c) = input_degree c) by (intros [| |[]| |]; destruct (m_kind d); try congruence; reflexivity).
  split.
  - rewrite (map_ext _ (fun o => state_degree (mo_cls o))) by (intros; apply HQ). destruct (m_kind d); try congruence; cbn; lia.
  - rewrite (map_ext _ (fun o => input_degree (mo_cls o))) by (intros; apply HU). destruct (m_kind d); try congruence; cbn; lia. Qed.

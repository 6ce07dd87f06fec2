(* PreFitVars.v -- fit() of TransformerMulti trains each member on its own variable (C06). *)
From Coq Require Import String ZArith Lia List.
From Verif Require Import LinAlg PreFinal ReqPre ItemModel ItemProofs SpecItem.
Import ListNotations.
#[local] Open Scope nat_scope.
#[local] Open Scope list_scope.

Lemma fit_from_set nx t a : fit_from (Some nx) t a = fit_from None (tf_set_base nx t) a.
Proof. destruct t; reflexivity. Qed.
Lemma set_base_keeps nx t : same_transformer t (tf_set_base nx t) /\ tf_name (tf_set_base nx t) = tf_name t /\ (tf_dim (tf_set_base nx t) = Some nx \/ tf_dim (tf_set_base nx t) = tf_dim t).
Proof. destruct t; cbn; auto 10. unfold same_settings. cbn. auto 10. Qed.
Lemma allsome_nth (l : list (option nat)) ns i : allsome l = Some ns -> i < length l -> nth_error l i = Some (Some (nth i ns 0)).
Proof. revert ns i. induction l as [|[x|] l IH]; cbn; intros ns i H Hi; [lia| |discriminate]. destruct (allsome l) as [ys|] eqn:E; [|discriminate]. cbn in H. injection H as <-. destruct i; cbn; auto. apply IH; auto. lia. Qed.
Lemma fit_by_variable l a t' b : fit_transform (TMulti l) a = Ok (t', b) ->
  exists l' ns, t' = TMulti l' /\ length l' = length l /\ length ns = length l /\ alen a = lsumn ns /\
    forall i t, nth_error l i = Some t -> exists t0, same_transformer t t0 /\ tf_name t0 = tf_name t /\ tf_dim t0 = Some (nth i ns 0) /\
      ((forall u, In u l -> tf_dim u <> None) -> t0 = t) /\
      (tf_dim t = None -> nth i ns 0 * length l = alen a) /\
      exists t1 r, nth_error l' i = Some t1 /\ fit_transform t0 (var_rows ns i a) = Ok (t1, r).
Proof.
  unfold fit_transform at 1. cbn [fit_from]. intros H.
  destruct (match allsome (variable_sizes l) with Some _ => Ok None | None => _ end) as [x|] eqn:EX; cbn [bind] in H; [|discriminate].
  set (l0 := match x with None => l | Some nx => map (tf_set_base nx) l end) in *.
  unfold multi_split, multi_check in H. destruct (allsome (variable_sizes l0)) as [ns|] eqn:EN; [|discriminate].
  destruct (Nat.eqb_spec (alen a) (lsumn ns)) as [Ha|]; cbn [bind] in H; [|discriminate].
  destruct (zipM (fit_from x) l (split_rows ns a)) as [ys|] eqn:EZ; cbn [bind] in H; [|discriminate].
  destruct (aconcat (map snd ys)) as [c|]; cbn [bind] in H; [|discriminate]. injection H as <- <-.
  assert (L0 : length l0 = length l) by (unfold l0; destruct x; rewrite ?map_length; auto).
  assert (LN : length ns = length l). { apply allsome_len in EN. unfold variable_sizes in EN. rewrite map_length in EN. lia. }
  destruct (zipM_nth (fit_from x) l (split_rows ns a) ys (TNull None None) (V []) (TNull None None, V [])) as (LY & F); [rewrite split_rows_length; auto|exact EZ|].
  exists (map fst ys), ns. split; auto. split; [rewrite map_length; auto|]. split; auto. split; auto.
  intros i t Ht. assert (Hi : i < length l) by (apply nth_error_Some; congruence). specialize (F i Hi). rewrite (nth_error_nth l i (TNull None None) Ht) in F. rewrite var_rows_nth in F by lia.
  assert (D := allsome_nth _ _ i EN). unfold variable_sizes in D. rewrite map_length, L0, nth_error_map in D. specialize (D Hi).
  assert (Y : nth_error (map fst ys) i = Some (fst (nth i ys (TNull None None, V [])))). { rewrite nth_error_map. rewrite (nth_error_nth' ys (TNull None None, V [])) by lia. reflexivity. }
  destruct x as [nx|].
  - assert (EU : allsome (variable_sizes l) = None /\ alen a mod length l = 0 /\ nx = alen a / length l).
    { destruct (allsome (variable_sizes l)); [discriminate|]. destruct (Nat.eqb_spec (alen a mod length l) 0); cbn in EX; [|discriminate]. injection EX as <-. auto. }
    destruct EU as (EU & EM & ->). exists (tf_set_base (alen a / length l) t). unfold l0 in D. rewrite nth_error_map, Ht in D. cbn in D. injection D as D.
    destruct (set_base_keeps (alen a / length l) t) as (K1 & K2 & K3). split; auto. split; auto. split; auto. split; [|split].
    + intros HU. exfalso. clear - EU HU. induction l as [|u l IH]; [discriminate|]. cbn in EU. destruct (tf_dim u) eqn:Eu; [|exact (HU u (or_introl eq_refl) Eu)].
      apply IH; [|intros v Hv; apply HU; right; auto]. destruct (allsome (map tf_dim l)) eqn:EL; [discriminate|auto].
    + intros Hd. rewrite Hd in K3. destruct K3 as [K3|K3]; [|congruence]. rewrite D in K3. injection K3 as K3. rewrite K3. assert (E := Nat.div_mod (alen a) (length l) ltac:(lia)). lia.
    + destruct (nth i ys (TNull None None, V [])) as [t1 r] eqn:E1. exists t1, r. split; auto. unfold fit_transform. rewrite <- fit_from_set. auto.
  - exists t. unfold l0 in D. rewrite Ht in D. cbn in D. injection D as D. split; [apply same_refl|]. split; auto. split; auto. split; auto. split; [congruence|].
    destruct (nth i ys (TNull None None, V [])) as [t1 r] eqn:E1. exists t1, r. auto.
Qed.

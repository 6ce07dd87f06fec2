(* ParaPairs.v -- the pairs of snapshots that ParametricDiscreteModel.fit() uses. *)
From Coq Require Import ZArith Lia List.
From Verif Require Import LinAlg MatAlg MonoHist MonoPredict.
From Verif Require Import SpecPara.
#[local] Open Scope nat_scope.

Lemma map2_cut r ks Ss us : 0 < r -> Forall2 (fun k S0 => is_mat r k S0) ks Ss ->
  map2 (fun u S0 => cut (ncols S0) u) us Ss = map2 cut ks us.
Proof. intros Hr H. revert us. induction H as [|k S0 ks Ss HS H IH]; intros [|u us]; auto. cbn [map2]. rewrite IH, (ncols_is_mat _ _ _ HS Hr). reflexivity. Qed.

Lemma pdiscrete_pairs X d mus r ks Qs inputs : 0 < r -> Forall2 (fun k Q => 1 < k /\ is_mat r k Q) ks Qs ->
  exists Ss Ns, Forall2 (fun k S0 => is_mat r (k - 1) S0) ks Ss /\ Forall2 (fun k N => is_mat r (k - 1) N) ks Ns /\
    (forall t k Q S0 N j, nth_error ks t = Some k -> nth_error Qs t = Some Q -> nth_error Ss t = Some S0 -> nth_error Ns t = Some N ->
       j + 1 < k -> colv r S0 j = colv r Q j /\ colv r N j = colv r Q (j + 1)) /\
    pdiscrete_fit X d mus Qs None inputs = pfit X d mus (map M Ss) (map M Ns) (option_map (map2 (fun k => cut (k - 1)) ks) inputs).
Proof. intros Hr H. exists (map (map (@removelast R)) Qs), (map (map (@tl R)) Qs).
  assert (HS : Forall2 (fun k S0 => is_mat r (k - 1) S0) ks (map (map (@removelast R)) Qs)).
  { induction H as [|k Q ks Qs [Hk HQ] H IH]; constructor; auto. apply is_mat_removelast; auto. }
  split; auto. split.
  { clear HS. induction H as [|k Q ks Qs [Hk HQ] H IH]; constructor; auto. apply is_mat_tl; auto. }
  split.
  - intros t k Q S0 N j Ek EQ ES EN Hj. rewrite nth_error_map, EQ in ES, EN. injection ES as <-. injection EN as <-.
    assert (HQ : is_mat r k Q). { clear - H Ek EQ. revert t Ek EQ. induction H as [|k' Q' ks Qs [_ HQ] H IH]; intros [|t] Ek EQ; try discriminate; [injection Ek as <-; injection EQ as <-; auto|apply (IH t); auto]. }
    split; apply (vec_ext r); auto using is_vec_colv; intros i Hi; rewrite !vget_colv by auto; [apply (mget_removelast r k)|apply (mget_tl r k)]; auto; lia.
  - unfold pdiscrete_fit. rewrite (map_map (map (@tl R))). destruct inputs as [us|]; cbn [option_map]; auto. do 2 f_equal. clear - Hr HS.
    revert us. induction HS as [|k S0 ks Ss HS' HS IH]; intros [|u us]; auto. cbn [map2]. rewrite IH, (ncols_is_mat _ _ _ HS' Hr). reflexivity. Qed.

Lemma pdiscrete_given X d mus r ks Ss next inputs : 0 < r -> Forall2 (fun k S0 => is_mat r k S0) ks Ss ->
  pdiscrete_fit X d mus Ss (Some next) inputs = pfit X d mus (map M Ss) next (option_map (map2 cut ks) inputs).
Proof. intros Hr H. unfold pdiscrete_fit. destruct inputs as [us|]; cbn [option_map]; auto. do 2 f_equal. apply (map2_cut r); auto. Qed.

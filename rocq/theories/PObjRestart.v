(* PObjRestart.v -- predictions of parametric models made of any operator objects: prefixes, restarts, rejected arguments. *)
From Coq Require Import ZArith String Lia.
From Verif Require Import LinAlg MatAlg OpsProofs MonoPredict ObjProofs ObjMain ObjRestart PObjProofs.
From Verif Require Import SpecPObj.
#[local] Open Scope nat_scope.

Theorem xpredict_prefix W P r m dom d Fs mu q0 n n' inputs Q : 0 < m -> xmodel_of W P r m dom d Fs -> dom mu -> is_vec r q0 -> xenough d m inputs n -> 1 <= n' -> n' <= n ->
  xpredict W P d mu (V q0) (Z.of_nat n) inputs = Ok Q -> xpredict W P d mu (V q0) (Z.of_nat n') inputs = Ok (mcols 0 n' Q).
Proof. intros Hm HX Hmu Hq HE H1 H2. destruct (xevaluate_model _ _ _ _ _ _ _ _ HX Hmu) as (e & E & _ & HM & Hh & _). unfold xpredict. rewrite E. cbn [bind].
  apply (opredict_prefix W r m e (at_mu Fs mu)); auto. intros H. apply HE; auto. Qed.
Theorem xpredict_restart W P r m dom d Fs mu q0 n j inputs Q : 0 < m -> xmodel_of W P r m dom d Fs -> dom mu -> is_vec r q0 -> xenough d m inputs n -> j < n ->
  xpredict W P d mu (V q0) (Z.of_nat n) inputs = Ok Q -> xpredict W P d mu (V (colv r Q j)) (Z.of_nat (n - j)) (later j inputs) = Ok (mcols j n Q).
Proof. intros Hm HX Hmu Hq HE Hj. destruct (xevaluate_model _ _ _ _ _ _ _ _ HX Hmu) as (e & E & _ & HM & Hh & _). unfold xpredict. rewrite E. cbn [bind].
  apply (opredict_restart W r m e (at_mu Fs mu)); auto. intros H. apply HE; auto. Qed.
Theorem xpredict_rejects W P r m dom d Fs mu q0 n inputs : 0 < m -> xmodel_of W P r m dom d Fs -> dom mu ->
  (match q0 with V q => length q <> r | M _ => True end -> xpredict W P d mu q0 n inputs = Err DimensionalityError) /\
  (forall q, q0 = V q -> is_vec r q -> (n < 1)%Z -> xpredict W P d mu q0 n inputs = Err ValueError).
Proof. intros Hm HX Hmu. destruct (xevaluate_model _ _ _ _ _ _ _ _ HX Hmu) as (e & E & _ & HM & Hh & _). unfold xpredict. rewrite E. cbn [bind].
  destruct (opredict_rejects W r m e (at_mu Fs mu) q0 n inputs Hm HM) as (R1 & R2). split; auto. intros q Eq Hq Hn. apply (R2 q Eq Hq). auto. Qed.

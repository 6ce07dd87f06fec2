(* ObjRestart.v -- predict() of models made of any operator objects can be restarted (C72). *)
From Coq Require Import String ZArith Lia List.
From Verif Require Import LinAlg MatAlg OpsProofs MonoPredict ObjProofs ObjMain.
From Verif Require Import SpecAnyObj.
#[local] Open Scope nat_scope.

Lemma nth_skip {A} (l : list A) j i x : nth i (skipn j l) x = nth (j + i) l x.
Proof. revert l. induction j as [|j IH]; intros [|a l]; cbn; auto. destruct i; auto. Qed.
Lemma skip_mat m k j U : is_mat m k U -> is_mat m (k - j) (map (skipn j) U).
Proof. intros [HL HF]. split; [rewrite map_length; auto|]. apply Forall_forall. intros row Hrow. apply in_map_iff in Hrow. destruct Hrow as (w & <- & Hw).
  rewrite Forall_forall in HF. specialize (HF w Hw). unfold is_vec in *. rewrite skipn_length. lia. Qed.
Lemma skip_colv j U i : colv (nrows (map (skipn j) U)) (map (skipn j) U) i = colv (nrows U) U (j + i).
Proof. unfold nrows. rewrite map_length. unfold colv. apply map_ext_in. intros a Ha. apply in_seq in Ha. unfold mget.
  rewrite (nth_indep _ [] (skipn j [])) by (rewrite map_length; lia). rewrite (map_nth (skipn j)). apply nth_skip. Qed.
Lemma olater_enough {W} (d : omodel W) m inputs n j : oenough d m inputs n -> j < n -> oenough d m (later j inputs) (n - j).
Proof. intros HE Hj Hh. destruct (HE Hh) as (u & k & -> & E3 & E4). destruct u as [v|U]; cbn [later atleast_2d] in *.
  - exists (V (skipn j v)), (k - j). split; auto. split; [|lia]. cbn [atleast_2d]. exact (skip_mat m k j [v] E3).
  - exists (M (map (skipn j) U)), (k - j). split; auto. split; [|lia]. cbn [atleast_2d]. apply skip_mat; auto. Qed.
Lemma olater_step {W} (d : omodel W) inputs j i : ostep d (later j inputs) i = ostep d inputs (j + i).
Proof. unfold ostep. destruct (om_hasin d); auto. destruct inputs as [[[v|U]|]|]; auto; cbn [later atleast_2d].
  - rewrite <- (skip_colv j [v] i). reflexivity.
  - rewrite <- (skip_colv j U i). reflexivity. Qed.

Theorem opredict_restart W r m d fs q0 n j inputs Q : 0 < m -> model_of W r m d fs -> is_vec r q0 -> oenough d m inputs n -> j < n ->
  opredict W d (V q0) (Z.of_nat n) inputs = Ok Q -> opredict W d (V (colv r Q j)) (Z.of_nat (n - j)) (later j inputs) = Ok (mcols j n Q).
Proof.
  intros Hm HM Hq HE Hj E. destruct (opredict_recurrence W r m d fs q0 n inputs Hm HM Hq HE ltac:(lia)) as (Q1 & E1 & HQ & _ & HR). rewrite E in E1. injection E1 as <-.
  destruct (opredict_recurrence W r m d fs (colv r Q j) (n - j) (later j inputs) Hm HM ltac:(apply is_vec_colv) (olater_enough d m inputs n j HE Hj) ltac:(lia)) as (Q2 & E2 & HQ2 & H0 & HR2).
  rewrite E2. f_equal.
  assert (HC : forall i, i < n - j -> colv r Q2 i = colv r Q (j + i)).
  { induction i as [|i IH]; intros Hi; [rewrite Nat.add_0_r; auto|]. specialize (IH ltac:(lia)). specialize (HR2 i ltac:(lia)). specialize (HR (j + i) ltac:(lia)).
    rewrite olater_step, IH, HR in HR2. injection HR2 as K. rewrite !Nat.add_1_r in K. rewrite <- K. f_equal. lia. }
  apply (mat_ext r (n - j)); auto.
  - apply is_mat_mcols with (d := n); auto; lia.
  - intros a b Ha Hb. rewrite (mget_mcols r n) by (auto; lia). rewrite <- (vget_colv r Q2 b a Ha), <- (vget_colv r Q (j + b) a Ha), HC by auto. reflexivity.
Qed.

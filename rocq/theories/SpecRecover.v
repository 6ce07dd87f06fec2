(* SpecRecover.v -- vocabulary for property C75. *)
From Coq Require Import ZArith.
From Verif Require Export SpecPGen.
#[local] Open Scope nat_scope.

(* the operators with matrices Es produce the left-hand sides exactly: f_Es(q_j, u_j) = z_j *)
Definition explains (r m k : nat) (fs : list feature) (Es : list mat) (Q Z U : mat) : Prop :=
  forall i j, i < r -> j < k -> value fs Es (colv r Q j) (colv m U j) i = mget Z i j.
(* the snapshots tell Es from all other matrices *)
Definition determined (r m k : nat) (args : list garg) (fs : list feature) (Es : list mat) (Q U : mat) : Prop :=
  forall Es', valued r args fs Es' ->
    (forall i j, i < r -> j < k -> value fs Es' (colv r Q j) (colv m U j) i = value fs Es (colv r Q j) (colv m U j) i) -> Es' = Es.

(* the same with training parameters *)
Definition yexplains (r m : nat) (mus : list pval) (ks : list nat) (xs : list ydesc) (Es : list mat) (Qs Zs Us : list mat) : Prop :=
  forall i j row, i < length mus -> j < nth i ks 0 -> row < r ->
    yvalue mus i xs Es (colv r (traj Qs i) j) (colv m (traj Us i) j) row = mget (traj Zs i) row j.
Definition ydetermined (r m : nat) (mus : list pval) (ks : list nat) (xs : list ydesc) (Es : list mat) (Qs Us : list mat) : Prop :=
  forall Es', yshapes r mus xs Es' ->
    (forall i j row, i < length mus -> j < nth i ks 0 -> row < r ->
       yvalue mus i xs Es' (colv r (traj Qs i) j) (colv m (traj Us i) j) row = yvalue mus i xs Es (colv r (traj Qs i) j) (colv m (traj Us i) j) row) ->
    Es' = Es.

(* |o_i|^2 *)
Definition row_size (d : nat) (O : mat) (i : nat) : R := bsum d (fun l => Rsqr (mget O i l)).

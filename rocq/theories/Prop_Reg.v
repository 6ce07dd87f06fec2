(* Prop_Reg.v -- property C60: which regularizers are accepted and what they mean. *)
From Coq Require Import ZArith Lia Lra List.
From Verif Require Import SolverSet.
#[local] Open Scope R_scope.

(* C60: L2Solver accepts None and numbers that are not negative, and nothing else. *)
Theorem C60_l2_accepts :
  forall s g,
  snd (l2_set s g) = Ok tt <-> (g = RNone \/ exists x, g = RScalar x /\ 0 <= x).
Proof. exact l2_set_ok. Qed.
Print Assumptions C60_l2_accepts.

(* C60: ... and then holds that number. *)
Theorem C60_l2_value :
  forall s g,
  snd (l2_set s g) = Ok tt -> l2_pre (fst (l2_set s g)) = l2_pre s /\
  l2_reg (fst (l2_set s g)) = match g with RScalar x => Some x | _ => None end.
Proof. exact l2_set_val. Qed.
Print Assumptions C60_l2_value.

(* C60: L2DecoupledSolver accepts None and vectors without negative entries, of one entry per row of Z if it is fitted. *)
Theorem C60_l2_decoupled_accepts :
  forall s g,
  snd (ld_set s g) = Ok tt <->
  (g = RNone \/ exists v, g = RVec v /\ no_negative v /\ forall D Z, odata (ld_pre s) = Some (D, Z) -> length v = nrows Z).
Proof. exact ld_set_ok. Qed.
Print Assumptions C60_l2_decoupled_accepts.

(* C60: ... and then holds that vector. *)
Theorem C60_l2_decoupled_value :
  forall s g,
  snd (ld_set s g) = Ok tt -> ld_pre (fst (ld_set s g)) = ld_pre s /\
  ld_reg (fst (ld_set s g)) = match g with RVec v => Some v | _ => None end.
Proof. exact ld_set_val. Qed.
Print Assumptions C60_l2_decoupled_value.

(* C60: fit() accepts a regularizer set before only if it has one entry per row of Z, and keeps it. *)
Theorem C60_l2_decoupled_fit :
  forall svd s D Z,
  snd (ld_fit svd s D Z) = Ok tt ->
  ld_reg (fst (ld_fit svd s D Z)) = ld_reg s /\
  exists D' Z', odata (ld_pre (fst (ld_fit svd s D Z))) = Some (D', Z') /\ D = M D' /\ Z' = atleast_2d Z /\
  forall v, ld_reg s = Some v -> length v = nrows Z'.
Proof. exact ld_fit_ok. Qed.
Print Assumptions C60_l2_decoupled_fit.

(* C60: TikhonovSolver accepts None, vectors without negative entries (as diagonals) and matrices, square of the size of the data if it is fitted. *)
Theorem C60_tikhonov_accepts :
  forall s g,
  snd (tk_set s g) = Ok tt <->
  match g with
  | None => True
  | Some a => exists G, meant a G /\ forall D Z, tk_data s = Some (D, Z) -> square (ncols D) G
  end.
Proof. exact tk_set_ok. Qed.
Print Assumptions C60_tikhonov_accepts.

(* C60: ... and then holds the matrix meant, with nothing else changed. *)
Theorem C60_tikhonov_value :
  forall s g,
  snd (tk_set s g) = Ok tt -> tk_data (fst (tk_set s g)) = tk_data s /\ tk_pre (fst (tk_set s g)) = tk_pre s /\
  tk_method (fst (tk_set s g)) = tk_method s /\ tk_opts (fst (tk_set s g)) = tk_opts s /\
  match g with None => tk_reg (fst (tk_set s g)) = None | Some a => exists G, tk_reg (fst (tk_set s g)) = Some G /\ meant a G end.
Proof. exact tk_set_val. Qed.
Print Assumptions C60_tikhonov_value.

(* C60: fit() accepts a regularizer set before only if it is square of the size of the data, and keeps it. *)
Theorem C60_tikhonov_fit :
  forall s D Z,
  snd (tk_fit s D Z) = Ok tt ->
  tk_reg (fst (tk_fit s D Z)) = tk_reg s /\
  exists D' Z', tk_data (fst (tk_fit s D Z)) = Some (D', Z') /\ D = M D' /\ Z' = atleast_2d Z /\
  forall G, tk_reg s = Some G -> square (ncols D') G.
Proof. exact tk_fit_ok. Qed.
Print Assumptions C60_tikhonov_fit.

(* C60: TikhonovDecoupledSolver accepts lists of such arguments, one per row of Z if it is fitted. *)
Theorem C60_tikhonov_decoupled_accepts :
  forall s gs,
  snd (td_set s gs) = Ok tt <->
  match gs with
  | None => True
  | Some l => exists Gs, Forall2 meant l Gs /\ forall D Z, td_data s = Some (D, Z) -> length Gs = nrows Z /\ Forall (square (ncols D)) Gs
  end.
Proof. exact td_set_ok. Qed.
Print Assumptions C60_tikhonov_decoupled_accepts.

(* C60: ... and then holds the matrices meant. *)
Theorem C60_tikhonov_decoupled_value :
  forall s gs,
  snd (td_set s gs) = Ok tt -> td_data (fst (td_set s gs)) = td_data s /\ td_pre (fst (td_set s gs)) = td_pre s /\
  td_method (fst (td_set s gs)) = td_method s /\
  match gs with None => td_reg (fst (td_set s gs)) = None | Some l => exists Gs, td_reg (fst (td_set s gs)) = Some Gs /\ Forall2 meant l Gs end.
Proof. exact td_set_val. Qed.
Print Assumptions C60_tikhonov_decoupled_value.

(* C60: the same for fit(). *)
Theorem C60_tikhonov_decoupled_fit :
  forall s D Z,
  snd (td_fit s D Z) = Ok tt ->
  td_reg (fst (td_fit s D Z)) = td_reg s /\
  exists D' Z', td_data (fst (td_fit s D Z)) = Some (D', Z') /\ D = M D' /\ Z' = atleast_2d Z /\
  forall Gs, td_reg s = Some Gs -> length Gs = nrows Z' /\ Forall (square (ncols D')) Gs.
Proof. exact td_fit_ok. Qed.
Print Assumptions C60_tikhonov_decoupled_fit.

(* Cases: a diagonal is accepted before a fit with two columns, and rejected with three entries after it. *)
Example C60_example :
  let s0 := {| tk_reg := None; tk_method := MLstsq; tk_opts := no_opts; tk_data := None; tk_pre := None |} in
  let s1 := fst (tk_set s0 (Some (V [3; 4]))) in
  let s2 := fst (tk_fit s1 (M [[1; 2]; [0; 1]; [1; 1]]) (M [[1; 2; 3]])) in
  snd (tk_set s0 (Some (V [3; 4]))) = Ok tt /\ snd (tk_fit s1 (M [[1; 2]; [0; 1]; [1; 1]]) (M [[1; 2; 3]])) = Ok tt /\
  snd (tk_set s2 (Some (V [3; 4; 5]))) = Err DimensionalityError.
Proof.
  assert (E : negs [3; 4] = false) by (apply negs_no_negative; intros x [<-|[<-|[]]]; lra).
  assert (E' : negs [3; 4; 5] = false) by (apply negs_no_negative; intros x [<-|[<-|[<-|[]]]]; lra).
  cbn [tk_set]. rewrite E, E'. do 2 (split; [reflexivity|]). reflexivity.
Qed.
Example C60_decoupled_example :
  let s := {| ld_reg := None; ld_pre := Some {| sp_D := [[1]]; sp_Z := [[1]; [2]]; sp_svals := [1]; sp_ZPhi := [[1]; [2]]; sp_PsiT := [[1]] |} |} in
  snd (ld_set s (RVec [1; 2])) = Ok tt /\ snd (ld_set s (RVec [1])) = Err DimensionalityError.
Proof.
  assert (E : negs [1; 2] = false) by (apply negs_no_negative; intros x [<-|[<-|[]]]; lra).
  cbn [ld_set]. rewrite E, negs_pos1. cbn. auto.
Qed.

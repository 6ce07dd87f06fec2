(* Prop_Param.v -- properties C24, C25. *)
From Verif Require Import LinAlg BlockAlg SpecExt SpecParam GalProofs AffProofs InterpProofs.
#[local] Open Scope nat_scope.

(* C24: evaluate(mu) returns an operator of the same class whose entries are sum_k theta_k(mu) A_k. *)
Theorem C24_evaluate_is_affine_combination :
  forall (r m : nat) (a : aff) (ops : list op) (mu : pval) (th : vec), 0 < r -> affine_of r m a ops ->
  match a_pdim a with Some p => plen mu = p | None => True end -> thetas a mu = Ok th -> length th = a_nterms a ->
  exists o, snd (aff_evaluate a mu) = Ok o /\ wf_op r m o /\ cls_of o = a_cls a /\
  forall i j, mget (entries2 o) i j = bsum (a_nterms a) (fun k => (vget th k * mget (entries2 (nth k ops (OConst []))) i j)%R).
Proof. exact evaluate_ok. Qed.
Print Assumptions C24_evaluate_is_affine_combination.

(* C24: evaluate(mu).apply(q, u) = sum_k theta_k(mu) A_k.apply(q, u). *)
Theorem C24_evaluate_apply :
  forall (r m : nat) (a : aff) (ops : list op) (mu : pval) (th : vec) (o : op) (q u : vec), 0 < r -> 0 < m -> affine_of r m a ops ->
  match a_pdim a with Some p => plen mu = p | None => True end -> thetas a mu = Ok th -> length th = a_nterms a ->
  is_vec r q -> is_vec m u -> snd (aff_evaluate a mu) = Ok o ->
  exists y ys, apply o (V q) (V u) = Ok (V y) /\ Forall2 (fun ok yk => apply ok (V q) (V u) = Ok (V yk)) ops ys /\
  is_vec r y /\ Forall (is_vec r) ys /\
  forall i, i < r -> vget y i = bsum (a_nterms a) (fun k => (vget th k * vget (nth k ys []) i)%R).
Proof. exact evaluate_apply. Qed.
Print Assumptions C24_evaluate_apply.

(* C24: with datablock D = datablock(mus, Qs, Us), [A_1 ... A_p] D is [Y_1 ... Y_s] where Y_b = evaluate(mu_b).apply(Q_b, U_b),
   and D has operator_dimension rows. *)
Theorem C24_datablock_lists_evaluations :
  forall (r m : nat) (a : aff) (ops : list op) (mus : list pval) (ks : list nat) (Qs Us : list mat), 0 < r -> 0 < m -> affine_of r m a ops -> mus <> [] ->
  length ks = length mus -> datashape r m ks Qs Us -> Forall (good_param a) mus ->
  exists D Ys, aff_datablock a mus Qs Us = Ok D /\ is_mat (aff_opdim a r m) (lsumn ks) D /\
   blocks r ks Ys /\ matmul (hstack (map entries2 ops)) D = hstack Ys /\
   forall b, b < length mus -> exists o, snd (aff_evaluate a (nth b mus (PS 0))) = Ok o /\
     apply o (M (nth b Qs [])) (M (nth b Us [])) = Ok (M (nth b Ys [])).
Proof. exact aff_datablock_ok. Qed.
Print Assumptions C24_datablock_lists_evaluations.

(* C24: what the regression returns, [A_1 ... A_p] as one block, is split back into A_1, ..., A_p. *)
Theorem C24_set_entries_from_block :
  forall (r m : nat) (a : aff) (ops : list op), 0 < r -> family r m (a_cls a) ops -> length ops = a_nterms a -> 0 < a_nterms a ->
  exists a', aff_set_block a (hstack (map entries2 ops)) = Ok a' /\ affine_of r m a' ops /\
    a_cls a' = a_cls a /\ a_theta a' = a_theta a /\ a_nterms a' = a_nterms a /\ a_pdim a' = a_pdim a.
Proof. exact aff_set_block_ok. Qed.
Print Assumptions C24_set_entries_from_block.

(* C24: galerkin(V, W) then evaluate(mu) acts as evaluate(mu) then galerkin(V, W).  P is the inverse of W'V;
   np.allclose skips the solve when W'V is close to the identity but different from it: excluded as in C22. *)
Theorem C24_galerkin_commutes_with_evaluate :
  forall (solve : mat -> mat -> res mat) (junk : nat -> vec) (n r m : nat) (a : aff) (ops : list op) (Vr : mat) (Wr : option mat) (P : mat),
  solve_spec solve -> (forall k, length (junk k) = k) -> 0 < n -> 0 < r -> 0 < m ->
  affine_of n m a ops -> is_mat n r Vr ->
  let W := match Wr with None => Vr | Some W => W end in
  is_mat n r W -> (matmul (mT W) Vr = eye r \/ allclose (matmul (mT W) Vr) (eye r) = false) ->
  is_mat r r P -> matmul P (matmul (mT W) Vr) = eye r ->
  forall (ag : aff) (mu : pval) (th : vec), aff_galerkin solve junk a Vr Wr = Ok ag ->
  match a_pdim a with Some p => plen mu = p | None => True end -> thetas a mu = Ok th -> length th = a_nterms a ->
  exists o og, snd (aff_evaluate a mu) = Ok o /\ snd (aff_evaluate ag mu) = Ok og /\
  forall g, galerkin solve junk o Vr Wr = Ok g -> forall q u, is_vec r q -> is_vec m u ->
    apply og (V q) (V u) = apply g (V q) (V u).
Proof. exact affine_galerkin_commutes. Qed.
Print Assumptions C24_galerkin_commutes_with_evaluate.

Example C24_case : affine_of 1 1 {| a_cls := CLin; a_theta := identity; a_nterms := 2; a_pdim := Some 2;
     a_entries := Some [OLin [[1%R]]; OLin [[3%R]]] |} [OLin [[1%R]]; OLin [[3%R]]] /\
  good_param {| a_cls := CLin; a_theta := identity; a_nterms := 2; a_pdim := Some 2;
     a_entries := Some [OLin [[1%R]]; OLin [[3%R]]] |} (PV [5; 7]%R) /\
  datashape 1 1 [2; 1] [[[1; 2]]; [[3]]]%R [[[0; 0]]; [[0]]]%R.
Proof. split; [|split].
  - split; [reflexivity|]. split; [|cbn; split; lia]. repeat constructor.
  - split; [reflexivity|]. exists [5; 7]%R. split; reflexivity.
  - split; repeat constructor. Qed.

(* C25: default interpolator, scalar training parameters in any order: evaluate at a training parameter returns the
   operator stored for it.  The hypothesis says CubicSpline interpolates on increasing parameters. *)
Theorem C25_evaluate_at_training_parameter :
  forall (cubic linearnd : iclass), (forall xs, 2 <= length xs -> strictly_inc xs -> interpolates cubic (map PS xs) (PS 0)) ->
  forall (r m : nat) (c : cls) (xs : vec) (ops : list op), 0 < r -> family r m c ops -> NoDup xs -> 2 <= length xs -> length ops = length xs ->
  exists t, i_init cubic linearnd c (map PS xs) (map entries2 ops) None = Ok t /\ i_entries t = Some ops /\
   i_params t = Some (map PS xs) /\ i_cls t = c /\ i_iclass t = Some cubic /\ i_pdim t = Some 1 /\
   forall i, i < length xs -> i_evaluate t (PS (vget xs i)) = Ok (nth i ops (OConst [])).
Proof. exact i_init_default. Qed.
Print Assumptions C25_evaluate_at_training_parameter.

(* C25: the same for an object in any state whose interpolator class was given by the user, on any parameters that
   class interpolates. *)
Theorem C25_evaluate_user_interpolator :
  forall (cubic linearnd : iclass) (r m : nat) (t : itp) (p : nat) (ps : list pval) (ops : list op) (C : iclass),
  0 < r -> family r m (i_cls t) ops -> i_params t = Some ps -> i_pdim t = Some p ->
  i_iclass t = Some C -> interpolates C ps (PS 0) -> length ops = length ps ->
  Forall (fun x => plen x = p /\ (p = 1 -> is_scalar x = true)) ps ->
  exists t', i_set cubic linearnd t (map entries2 ops) = (t', Ok tt) /\ i_entries t' = Some ops /\ i_params t' = i_params t /\ i_cls t' = i_cls t /\
   forall i, i < length ps -> i_evaluate t' (nth i ps (PS 0)) = Ok (nth i ops (OConst [])).
Proof. exact i_set_user. Qed.
Print Assumptions C25_evaluate_user_interpolator.

(* C25: the data block is block diagonal and has operator_dimension(s, r, m) rows:
   [A_1 ... A_s] D = [A_1 D_1 ... A_s D_s], D_i = datablock(Q_i, U_i). *)
Theorem C25_datablock_block_diagonal :
  forall (r m : nat) (c : cls) (mus : list pval) (ks : list nat) (Qs Us : list mat),
  0 < r -> 0 < m -> mus <> [] -> length ks = length mus -> datashape r m ks Qs Us ->
  exists D Ds, i_datablock c mus Qs Us = Ok D /\ is_mat (i_opdim c (length mus) r m) (lsumn ks) D /\
  length Ds = length mus /\
  (forall i, i < length mus -> datablock (proto c) (M (nth i Qs [])) (M (nth i Us [])) = Ok (nth i Ds [])) /\
  forall r' As, blocks r' (map (fun _ => opdim (proto c) r m) mus) As ->
   matmul (hstack As) D = hstack (map2 matmul As Ds).
Proof. exact i_datablock_diag. Qed.
Print Assumptions C25_datablock_block_diagonal.

(* C25: so [A_1 ... A_s] minimises the residual of the whole regression iff each A_i minimises the residual of its own. *)
Theorem C25_regression_decouples :
  forall (r m : nat) (c : cls) (mus : list pval) (ks : list nat) (Qs Us Zs : list mat) (D : mat),
  0 < r -> 0 < m -> mus <> [] -> length ks = length mus -> datashape r m ks Qs Us ->
  i_datablock c mus Qs Us = Ok D -> forall r' As, blocks r' ks Zs -> blocks r' (map (fun _ => opdim (proto c) r m) mus) As ->
  ((forall Bs, blocks r' (map (fun _ => opdim (proto c) r m) mus) Bs ->
     (mnorm2 (msub (matmul (hstack As) D) (hstack Zs)) <= mnorm2 (msub (matmul (hstack Bs) D) (hstack Zs)))%R) <->
   (forall i, i < length mus -> exists Di, datablock (proto c) (M (nth i Qs [])) (M (nth i Us [])) = Ok Di /\
      lsq_minimizer r' (opdim (proto c) r m) Di (nth i Zs []) (nth i As []))).
Proof. exact i_regression_decouples. Qed.
Print Assumptions C25_regression_decouples.

(* C25 fails for an object whose entries are set a second time: after the first set_entries the remembered class is
   CubicSpline, so the parameters are no longer sorted.  With unsorted parameters CubicSpline raises, the entries are
   the new ones and evaluate still returns the old ones; copy() raises too. *)
Theorem C25_second_set_entries_refuted :
  forall (cubic linearnd : iclass) (r m : nat) (c : cls) (xs : vec) (ops ops' : list op), 0 < r ->
  (forall xs, 2 <= length xs -> strictly_inc xs -> interpolates cubic (map PS xs) (PS 0)) ->
  (forall xs es, ~ strictly_inc xs -> cubic (map PS xs) es = Err ValueError) ->
  family r m c ops -> family r m c ops' -> NoDup xs -> 2 <= length xs -> ~ strictly_inc xs -> length ops = length xs -> length ops' = length xs ->
  exists t t', i_init cubic linearnd c (map PS xs) (map entries2 ops) None = Ok t /\
   i_set cubic linearnd t (map entries2 ops') = (t', Err ValueError) /\
   i_entries t' = Some ops' /\ (forall i, i < length xs -> i_evaluate t' (PS (vget xs i)) = Ok (nth i ops (OConst []))) /\
   i_copy cubic linearnd t = Err ValueError.
Proof. exact reset_stale. Qed.
Print Assumptions C25_second_set_entries_refuted.

(* an interpolator class with the two assumed properties exists; the parameters 1, 0 are distinct and unsorted *)
Example C25_case : exists cubic : iclass,
  (forall xs, 2 <= length xs -> strictly_inc xs -> interpolates cubic (map PS xs) (PS 0)) /\
  (forall xs es, ~ strictly_inc xs -> cubic (map PS xs) es = Err ValueError) /\
  NoDup [1; 0]%R /\ ~ strictly_inc [1; 0]%R /\ family 1 1 CLin [OLin [[1%R]]; OLin [[2%R]]].
Proof. exact toy_cubic. Qed.

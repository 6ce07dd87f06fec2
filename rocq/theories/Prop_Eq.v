(* Prop_Eq.v -- property C65 (== of transformers, bases and interpolated operators). *)
From Coq Require Import String ZArith Reals Lra Lia List.
From Verif Require Import PodHist InterpProofs EqProofs EqBasis EqItp.
From Verif Require Import SpecEq.
#[local] Open Scope nat_scope.

(* C65: a trained ShiftScaleTransformer equals another exactly if options, dimension and learned quantities are the same. *)
Theorem C65_transformer_equal :
  forall a b,
  ss_reach a -> ss_reach b -> ss_is_trained a = true -> ss_eqb a b = true <-> same_but_name a b.
Proof. exact ss_equal_iff. Qed.
Print Assumptions C65_transformer_equal.

(* C65: equal transformers, the left one trained, return the same for every call. *)
Theorem C65_transformer_alike :
  forall a b,
  ss_reach a -> ss_reach b -> ss_is_trained a = true -> ss_eqb a b = true -> alike (TSS a) (TSS b).
Proof. exact ss_equal_alike. Qed.
Print Assumptions C65_transformer_alike.

(* C65: every transformer equals itself, except one that was given a scale_ but no shift_. *)
Theorem C65_transformer_reflexive :
  forall a,
  ss_reach a -> ss_eqb a a = true <-> (ss_scale a <> None -> ss_shift a <> None).
Proof. exact ss_refl. Qed.
Print Assumptions C65_transformer_reflexive.

(* C65: between trained transformers == is symmetric. *)
Theorem C65_transformer_symmetric :
  forall a b,
  ss_reach a -> ss_reach b -> ss_is_trained a = true -> ss_is_trained b = true -> ss_eqb a b = ss_eqb b a.
Proof. exact ss_sym. Qed.
Print Assumptions C65_transformer_symmetric.

(* C65: == is transitive. *)
Theorem C65_transformer_transitive :
  forall a b c,
  ss_reach a -> ss_reach b -> ss_reach c -> ss_eqb a b = true -> ss_eqb b c = true -> ss_eqb a c = true.
Proof. exact ss_trans. Qed.
Print Assumptions C65_transformer_transitive.

(* C65: two transformers with the same options are equal after a fit to the same data. *)
Theorem C65_transformer_fitted :
  forall cent sc byrow nm nm' s s' a t t',
  ss_init cent sc byrow nm = Ok s -> ss_init cent sc byrow nm' = Ok s' -> fit (TSS s) a = Ok t -> fit (TSS s') a = Ok t' ->
  exists u u', t = TSS u /\ t' = TSS u' /\ ss_reach u /\ ss_reach u' /\ ss_is_trained u = true /\ ss_eqb u u' = true /\ ss_eqb u' u = true.
Proof. exact fitted_equal. Qed.
Print Assumptions C65_transformer_fitted.

(* C65: a transformer equals its reloaded copy. *)
Theorem C65_transformer_reloaded :
  forall I s,
  plain_tf (TSS s) -> exists s', comes_back I (SvTf (TSS s)) (tf_load1 KSS) (TSS s') /\ ss_eqb s s' = true /\ ss_eqb s' s = true.
Proof. exact leaf_reloaded. Qed.
Print Assumptions C65_transformer_reloaded.

(* C65, refuted for an untrained left operand: one whose dimension is known equals every transformer with its options, but not conversely, and it does not act like them. *)
Theorem C65_transformer_symmetry_refuted :
  exists a b, ss_reach a /\ ss_reach b /\ ss_eqb a b = true /\ ss_eqb b a = false /\
  (forall x, transform (TSS a) x = Err AttributeError) /\ transform (TSS b) (V [5; 6]%R) = Ok (V [3; 1]%R).
Proof. exact ss_sym_refuted. Qed.
Print Assumptions C65_transformer_symmetry_refuted.

(* C65: equal TransformerMulti objects with trained members return the same for every call. *)
Theorem C65_multi_alike :
  forall same l l',
  Forall trained_ss l -> Forall trained_ss l' -> one_object same l l' -> multi_eqb same l l' = true -> alike (TMulti l) (TMulti l').
Proof. exact multi_alike. Qed.
Print Assumptions C65_multi_alike.

(* C65: a TransformerMulti equals its reloaded copy exactly if all its members are ShiftScaleTransformers; the other classes are compared by identity. *)
Theorem C65_multi_reloaded :
  forall I l,
  l <> [] -> Forall plain_tf l -> Forall (fun t => tf_name t <> None) l ->
  exists l', comes_back I (SvTf (TMulti l)) (tmulti_load (Each (map tf_class l))) (TMulti l') /\
  (multi_eqb (repeat false (length l)) l l' = true <-> forall t, In t l -> exists s, t = TSS s).
Proof. exact multi_reloaded. Qed.
Print Assumptions C65_multi_reloaded.

(* C65: what it means for two bases to be equal. *)
Theorem C65_basis_equal :
  forall a b,
  b_eqb a b = Ok true <->
  same_basis_class a b /\ b_n a = b_n b /\ b_rank a = b_rank b /\ b_entries a = b_entries b /\ close_weights (b_weights a) (b_weights b).
Proof. exact b_equal_iff. Qed.
Print Assumptions C65_basis_equal.

(* C65: a basis equals itself. *)
Theorem C65_basis_reflexive :
  forall b,
  b_eqb b b = Ok true.
Proof. exact b_refl. Qed.
Print Assumptions C65_basis_reflexive.

(* C65: equal bases have the same dimensions and decompress alike. *)
Theorem C65_basis_decompress_alike :
  forall a b,
  b_eqb a b = Ok true -> b_n a = b_n b /\ b_r a = b_r b /\ forall q locs, b_decompress a q locs = b_decompress b q locs.
Proof. exact b_decompress_alike. Qed.
Print Assumptions C65_basis_decompress_alike.

(* C65: and compress alike if their weights are the same. *)
Theorem C65_basis_compress_alike :
  forall a b,
  b_eqb a b = Ok true -> b_weights a = b_weights b -> forall x, b_compress a x = b_compress b x.
Proof. exact b_compress_alike. Qed.
Print Assumptions C65_basis_compress_alike.

(* C65: otherwise the compressed states differ at most by the tolerance of the comparison. *)
Theorem C65_basis_compress_close :
  forall n r k W W' A A' a b x,
  basis_of n r W A a -> basis_of n r W' A' b -> b_eqb a b = Ok true -> shaped n k x ->
  exists q q', b_compress a x = Ok q /\ b_compress b x = Ok q' /\
  forall c j, c < r -> j < k -> (Rabs (aget q c j - aget q' c j) <=
    bsum n (fun i => bsum n (fun l => Rabs (mget A i c) * (/ 10 ^ 8 + / 10 ^ 5 * Rabs (wget W' i l)) * Rabs (aget x l j))))%R.
Proof. exact b_compress_close. Qed.
Print Assumptions C65_basis_compress_close.

(* C65, refuted: equal bases may compress every state differently. *)
Theorem C65_basis_compress_refuted :
  exists a b, lb_init [[1%R]] (Some (WDiag [1%R])) false None = Ok a /\ lb_init [[1%R]] (Some (WDiag [1 + uM]%R)) false None = Ok b /\
  b_eqb (BLin a) (BLin b) = Ok true /\ b_eqb (BLin b) (BLin a) = Ok true /\
  forall x, x <> 0%R -> exists y z, b_compress (BLin a) (V [x]) = Ok (V [y]) /\ b_compress (BLin b) (V [x]) = Ok (V [z]) /\ y <> z.
Proof. exact b_compress_refuted. Qed.
Print Assumptions C65_basis_compress_refuted.

(* C65, refuted: == of bases is not symmetric. *)
Theorem C65_basis_symmetry_refuted :
  exists (w : R) a b, lb_init [[1%R]] (Some (WDiag [1%R])) false None = Ok a /\ lb_init [[1%R]] (Some (WDiag [w])) false None = Ok b /\
  b_eqb (BLin a) (BLin b) = Ok true /\ b_eqb (BLin b) (BLin a) = Ok false.
Proof. exact b_sym_refuted. Qed.
Print Assumptions C65_basis_symmetry_refuted.

(* C65, refuted: == of bases is not transitive. *)
Theorem C65_basis_transitivity_refuted :
  exists a b c, lb_init [[1%R]] (Some (WDiag [1%R])) false None = Ok a /\ lb_init [[1%R]] (Some (WDiag [1 + uM]%R)) false None = Ok b /\
  lb_init [[1%R]] (Some (WDiag [1 + 2 * uM]%R)) false None = Ok c /\
  b_eqb (BLin a) (BLin b) = Ok true /\ b_eqb (BLin b) (BLin c) = Ok true /\ b_eqb (BLin a) (BLin c) = Ok false.
Proof. exact b_trans_refuted. Qed.
Print Assumptions C65_basis_transitivity_refuted.

(* C65, refuted: comparing diagonal with full weights raises an exception, though both bases act alike. *)
Theorem C65_basis_mixed_refuted :
  exists a b, lb_init (eye 2) (Some (WDiag [1; 1]%R)) true None = Ok a /\ lb_init (eye 2) (Some (WMat (eye 2))) true None = Ok b /\
  (forall x, b_compress (BLin a) (V x) = b_compress (BLin b) (V x)) /\ b_eqb (BLin a) (BLin b) = Err OtherError.
Proof. exact b_mixed_refuted. Qed.
Print Assumptions C65_basis_mixed_refuted.

(* C65: a LinearBasis never equals a PODBasis. *)
Theorem C65_basis_kinds :
  forall l p,
  b_eqb (BLin l) (BPod p) = Ok false /\ b_eqb (BPod p) (BLin l) = Ok false.
Proof. exact lin_pod. Qed.
Print Assumptions C65_basis_kinds.

(* C65: two unfitted PODBasis objects with the same weights are equal, whatever their criteria and solvers. *)
Theorem C65_pod_unfitted :
  forall X a a' mx mx' sv sv' W nm nm' p p',
  pod_init X a mx sv W nm = Ok p -> pod_init X a' mx' sv' W nm' = Ok p' -> b_eqb (BPod p) (BPod p') = Ok true.
Proof. exact new_pods_equal. Qed.
Print Assumptions C65_pod_unfitted.

(* C65, refuted: so equal bases may differ after the same fit. *)
Theorem C65_pod_unfitted_refuted :
  exists p p' q q', pod_init noX (by_num 1) None (SCustom svd2) None None = Ok p /\ pod_init noX (by_num 2) None (SCustom svd2) None None = Ok p' /\
  b_eqb (BPod p) (BPod p') = Ok true /\ pod_fit noX (S2 (eye 2)) p = (q, None) /\ pod_fit noX (S2 (eye 2)) p' = (q', None) /\
  b_r (BPod q) = Some 1 /\ b_r (BPod q') = Some 2 /\ b_eqb (BPod q) (BPod q') = Ok false.
Proof. exact fitted_pods_refuted. Qed.
Print Assumptions C65_pod_unfitted_refuted.

(* C65: BasisMulti objects are equal if they have as many members and these are equal in turn. *)
Theorem C65_basis_multi_equal :
  forall l l',
  bm_eqb l l' = Ok true <-> Forall2 (fun a b => b_eqb a b = Ok true) l l'.
Proof. exact bm_true. Qed.
Print Assumptions C65_basis_multi_equal.

(* C65: a BasisMulti equals itself. *)
Theorem C65_basis_multi_reflexive :
  forall l,
  bm_eqb l l = Ok true.
Proof. exact bm_refl. Qed.
Print Assumptions C65_basis_multi_reflexive.

(* C65: equal BasisMulti objects decompress alike. *)
Theorem C65_basis_multi_decompress_alike :
  forall l l',
  bm_eqb l l' = Ok true -> forall q locs, bm_decompress l' q locs = bm_decompress l q locs.
Proof. exact bm_decompress_alike. Qed.
Print Assumptions C65_basis_multi_decompress_alike.

(* C65: and compress alike if their weights are the same. *)
Theorem C65_basis_multi_compress_alike :
  forall l l',
  bm_eqb l l' = Ok true -> map b_weights l' = map b_weights l -> forall a, bm_compress l' a = bm_compress l a.
Proof. exact bm_compress_alike. Qed.
Print Assumptions C65_basis_multi_compress_alike.

(* C65: what it means for two interpolated operators to be equal. *)
Theorem C65_interpolated_equal :
  forall same a b,
  is_class same a b -> i_eqb same a b = true <->
  i_cls a = i_cls b /\ i_params a = i_params b /\ i_iclass a = i_iclass b /\
  match i_entries a, i_entries b with None, None => True | Some l, Some l' => Forall2 close_op l l' | _, _ => False end.
Proof. exact i_equal_iff. Qed.
Print Assumptions C65_interpolated_equal.

(* C65: an interpolated operator equals itself. *)
Theorem C65_interpolated_reflexive :
  forall t,
  i_eqb true t t = true.
Proof. exact i_refl. Qed.
Print Assumptions C65_interpolated_reflexive.

(* C65: two interpolated operators with the same training parameters and class are equal exactly if they evaluate, up to the tolerance, to the same operators at the training parameters. *)
Theorem C65_interpolated_at_training :
  forall cubic linearnd r m a b p ps ops ops' C,
  0 < r ->
  family r m (i_cls a) ops -> family r m (i_cls a) ops' ->
  i_params a = Some ps -> i_pdim a = Some p -> i_iclass a = Some C -> i_cls b = i_cls a -> i_params b = i_params a -> i_pdim b = i_pdim a -> i_iclass b = i_iclass a ->
  interpolates C ps (PS 0) -> length ops = length ps -> length ops' = length ps -> Forall (fun x => plen x = p /\ (p = 1 -> is_scalar x = true)) ps ->
  exists a' b', i_set cubic linearnd a (map entries2 ops) = (a', Ok tt) /\ i_set cubic linearnd b (map entries2 ops') = (b', Ok tt) /\
  (i_eqb true a' b' = true <-> forall i, i < length ps -> exists o o', i_evaluate a' (nth i ps (PS 0)) = Ok o /\ i_evaluate b' (nth i ps (PS 0)) = Ok o' /\ close_op o o').
Proof. exact i_equal_at. Qed.
Print Assumptions C65_interpolated_at_training.

(* C65: a copy of an interpolated operator equals it. *)
Theorem C65_interpolated_copy :
  forall same cubic linearnd r m c ps ops ic t t',
  is_class same t t' -> 0 < r -> family r m c ops ->
  i_init cubic linearnd c ps (map entries2 ops) ic = Ok t -> i_copy cubic linearnd t = Ok t' -> i_eqb same t t' = true /\ i_eqb same t' t = true.
Proof. exact i_copy_equal. Qed.
Print Assumptions C65_interpolated_copy.

(* C65, refuted after an entries assignment that raised: operators that are equal may evaluate to different operators. *)
Theorem C65_interpolated_stale_refuted :
  forall cubic linearnd r m c xs ops ops',
  0 < r ->
  (forall xs, 2 <= length xs -> strictly_inc xs -> interpolates cubic (map PS xs) (PS 0)) ->
  (forall xs es, ~ strictly_inc xs -> cubic (map PS xs) es = Err ValueError) ->
  family r m c ops -> family r m c ops' -> NoDup xs -> 2 <= length xs -> ~ strictly_inc xs -> length ops = length xs -> length ops' = length xs ->
  exists t t' u, i_init cubic linearnd c (map PS xs) (map entries2 ops) None = Ok t /\ i_set cubic linearnd t (map entries2 ops') = (t', Err ValueError) /\
   i_init cubic linearnd c (map PS xs) (map entries2 ops') None = Ok u /\ i_eqb true t' u = true /\
   forall i, i < length xs -> i_evaluate t' (PS (vget xs i)) = Ok (nth i ops (OConst [])) /\ i_evaluate u (PS (vget xs i)) = Ok (nth i ops' (OConst [])).
Proof. exact i_stale. Qed.
Print Assumptions C65_interpolated_stale_refuted.

(* ---- the hypotheses can be met ---- *)
Definition s65 (nm : option String.string) : ss :=
  {| ss_cent := true; ss_scaling := Some Maxabs; ss_byrow := false; ss_name := nm; ss_n := Some 2; ss_mean := Some [2; 5]%R; ss_scale := Some (Sc 3); ss_shift := Some (Sc 0) |}.
Lemma s65_reach nm : ss_reach (s65 nm).
Proof.
  set (s0 := {| ss_cent := true; ss_scaling := Some Maxabs; ss_byrow := false; ss_name := nm; ss_n := None; ss_mean := None; ss_scale := None; ss_shift := None |}).
  assert (R0 : ss_reach s0) by (apply (sr_new true (Some Maxabs) false nm); reflexivity).
  assert (R1 : ss_reach (ss_put (Some 2) (Some [2; 5]%R) None None s0)) by (apply (sr_mean s0 [2; 5]%R); auto).
  assert (R2 : ss_reach (ss_put (Some 2) (Some [2; 5]%R) (Some (Sc 3)) None s0)) by (apply (sr_scale _ (Sc 3) _ R1); [eauto|reflexivity]).
  apply (sr_shift _ (Sc 0) _ R2); [eauto|reflexivity].
Qed.
Example C65_example_transformer : ss_reach (s65 None) /\ ss_reach (s65 (Some "x"%string)) /\ ss_is_trained (s65 None) = true /\ ss_eqb (s65 None) (s65 (Some "x"%string)) = true.
Proof.
  do 2 (split; [apply s65_reach|]). split; [reflexivity|]. apply ss_equal_iff; try apply s65_reach; [reflexivity|]. repeat split.
Qed.
Example C65_example_half : exists s, ss_reach s /\ ss_eqb s s = false.
Proof.
  set (s0 := {| ss_cent := false; ss_scaling := Some Maxabs; ss_byrow := false; ss_name := None; ss_n := None; ss_mean := None; ss_scale := None; ss_shift := None |}).
  assert (R0 : ss_reach s0) by (apply (sr_new false (Some Maxabs) false None); reflexivity).
  assert (R1 : ss_reach (ss_put None None (Some (Sc 3)) None s0)) by (apply (sr_scale _ (Sc 3) _ R0); [eauto|reflexivity]).
  eexists. split; [exact R1|]. destruct (ss_eqb _ _) eqn:E; auto. apply (ss_refl _ R1) in E; [destruct (E eq_refl)|discriminate].
Qed.
Example C65_example_multi : multi_eqb [false; true] [TSS (s65 None); TNull (Some 1) None] [TSS (s65 (Some "x"%string)); TNull (Some 1) None] = true /\
  Forall trained_ss [TSS (s65 None); TNull (Some 1) None] /\ one_object [false; true] [TSS (s65 None); TNull (Some 1) None] [TSS (s65 (Some "x"%string)); TNull (Some 1) None].
Proof.
  split. { unfold multi_eqb. cbn [length Nat.eqb members_eqb tf_eqb andb]. rewrite (proj2 (proj2 (proj2 C65_example_transformer))). reflexivity. }
  split. { constructor; [|constructor; [discriminate|constructor]]. intros s E. injection E as <-. split; [apply s65_reach|reflexivity]. }
  intros [|[|i]] t t' H1 H2 H3; cbn in *; try discriminate; try congruence; destruct i; discriminate.
Qed.
Example C65_example_reloaded : plain_tf (TSS (s65 (Some "x"%string))) /\ plain_tf (TNull (Some 1) (Some "y"%string)).
Proof. split; [|discriminate]. split; [apply s65_reach|]. split; [discriminate|]. split; [discriminate|]. split; discriminate. Qed.
Example C65_example_basis : basis_of 1 1 (Some (WDiag [1%R])) [[1%R]] (BLin (lb1 1)) /\ basis_of 1 1 (Some (WDiag [1 + uM]%R)) [[1%R]] (BLin (lb1 (1 + uM))) /\
  b_eqb (BLin (lb1 1)) (BLin (lb1 (1 + uM))) = Ok true /\ bm_eqb [BLin (lb1 1); BLin (lb1 1)] [BLin (lb1 (1 + uM)); BLin (lb1 1)] = Ok true.
Proof.
  assert (E : b_eqb (BLin (lb1 1)) (BLin (lb1 (1 + uM))) = Ok true) by (apply lb1_eqb, close_pos; unfold uM; lra).
  split. { repeat (split; [lia || reflexivity|]). repeat split; repeat constructor. } split. { repeat (split; [lia || reflexivity|]). repeat split; repeat constructor. }
  split; auto. apply bm_true. repeat constructor; auto. apply b_refl.
Qed.
Definition two65 : iclass := fun _ es => Ok (fun p => if Req_EM_T (unscalar p) 1 then Ok (nth 0 es []) else Ok (nth 1 es [])).
Example C65_example_interpolated : exists a : itp, i_params a = Some [PS 1; PS 0] /\ i_pdim a = Some 1 /\ i_iclass a = Some two65 /\ is_class true a a /\
  interpolates two65 [PS 1; PS 0] (PS 0) /\ family 1 1 (i_cls a) [OLin [[1%R]]; OLin [[2%R]]].
Proof.
  exists {| i_cls := CLin; i_pdim := Some 1; i_params := Some [PS 1; PS 0]; i_entries := None; i_interp := None; i_iclass := Some two65 |}.
  do 3 (split; [reflexivity|]). split; [split; auto|]. split; [|repeat constructor].
  intros es HL. eexists. split; [reflexivity|]. intros [|[|i]] Hi; cbn in Hi; try lia; cbn.
  + destruct (Req_EM_T 1 1); [reflexivity|congruence].
  + destruct (Req_EM_T 0 1); [lra|reflexivity].
Qed.

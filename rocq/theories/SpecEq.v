(* SpecEq.v -- vocabulary for the statements about ==. *)
From Verif Require Export EqModel SpecSave SpecBasis SpecParam SpecExt.
#[local] Open Scope nat_scope.

(* the same options, the same dimension and the same learned quantities; the names may differ *)
Definition same_but_name (a b : ss) : Prop :=
  ss_cent b = ss_cent a /\ ss_scaling b = ss_scaling a /\ ss_byrow b = ss_byrow a /\ ss_n b = ss_n a /\
  ss_mean b = ss_mean a /\ ss_scale b = ss_scale a /\ ss_shift b = ss_shift a.
(* no sequence of arguments tells the two transformers apart: same results, same exceptions *)
Definition alike (t t' : tf) : Prop :=
  (forall a, transform t' a = transform t a) /\ (forall a, transform_ddts t' a = transform_ddts t a) /\
  (forall locs a, inverse_transform t' locs a = inverse_transform t locs a) /\ tf_dim t' = tf_dim t.
(* what "same" says of the members of two TransformerMulti: one object has one state *)
Definition one_object (same : list bool) (l l' : list tf) : Prop :=
  forall i t t', nth_error same i = Some true -> nth_error l i = Some t -> nth_error l' i = Some t' -> t = t'.
(* a member that is trained, if it is a ShiftScaleTransformer *)
Definition trained_ss (t : tf) : Prop := forall s, t = TSS s -> ss_reach s /\ ss_is_trained s = true.
(* the tolerance of np.allclose, which is not symmetric *)
Definition close (x y : R) : Prop := (Rabs (x - y) <= / 10 ^ 8 + / 10 ^ 5 * Rabs y)%R.
Definition same_basis_class (a b : basis) : Prop := match a, b with BLin _, BLin _ | BPod _, BPod _ => True | _, _ => False end.
(* weights that are there for both or for neither, of the same form and size, entrywise close *)
Definition close_weights (a b : option weight) : Prop :=
  match a, b with
  | None, None => True
  | Some (WDiag u), Some (WDiag v) => length u = length v /\ forall i, i < length u -> close (vget u i) (vget v i)
  | Some (WMat A), Some (WMat B) => nrows A = nrows B /\ ncols A = ncols B /\
                                    forall i j, i < nrows A -> j < ncols A -> close (mget A i j) (mget B i j)
  | _, _ => False
  end.
(* the entries of the two operators have the same shape and are entrywise close *)
Definition close_op (o o' : op) : Prop :=
  nrows (entries2 o) = nrows (entries2 o') /\ ncols (entries2 o) = ncols (entries2 o') /\
  forall i j, i < nrows (entries2 o) -> j < ncols (entries2 o) -> close (mget (entries2 o) i j) (mget (entries2 o') i j).
(* the outcome of "is" for the interpolator classes (or None) of the two operators *)
Definition is_class (same : bool) (a b : itp) : Prop := same = true <-> i_iclass a = i_iclass b.

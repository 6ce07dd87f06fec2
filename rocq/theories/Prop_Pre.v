(* Prop_Pre.v -- properties C01 to C08. *)
From Coq Require Import ZArith.
From Verif Require Import SpecPre SpecHeap PreFinal.
#[local] Open Scope nat_scope.

(* C01: a trained transformer (ShiftTransformer, ScaleTransformer, ShiftScaleTransformer, NullTransformer and their
   pipelines and multi-variable joins) undoes itself in both directions and keeps the shape. *)
Theorem C01_round_trip :
  forall (t : tf) (n : nat), trained n t -> forall a, alen a = n ->
  (exists b, transform t a = Ok b /\ same_shape a b /\ inverse_transform t None b = Ok a) /\
  (exists b, inverse_transform t None a = Ok b /\ same_shape a b /\ transform t b = Ok a).
Proof. exact C01_all. Qed.
Print Assumptions C01_round_trip.

(* C01: what fit_transform leaves behind is trained for the rows it saw, and transform then returns what fit_transform
   returned. *)
Theorem C01_fit_trains :
  forall (t : tf) (a : arr) (t' : tf) (b : arr), built t -> fit_transform t a = Ok (t', b) ->
  trained (alen a) t' /\ built t' /\ transform t' a = Ok b.
Proof. exact C_fit_transform. Qed.
Print Assumptions C01_fit_trains.

(* C01: everything the constructors return is such a transformer. *)
Theorem C01_constructors_build :
  forall t : tf,
  (exists ref nm, mk_shift ref nm = Ok t) \/ (exists c nm, mk_scale c nm = Ok t) \/ (exists ce sc by_ nm, mk_ss ce sc by_ nm = Ok t) \/
  (exists nm, mk_null nm = t) \/ (exists l nm, mk_pipe (PList l) nm = Ok t /\ l <> [] /\ Forall built l) \/
  (exists l, mk_multi l None = Ok t /\ Forall (fun o => match o with Some u => built u | None => True end) l) -> built t.
Proof. exact C01_constructors. Qed.
Print Assumptions C01_constructors_build.

(* C01 fails when the reference of a ShiftTransformer is a view of the data transformed in place: the constructor keeps
   the array it is given. *)
Theorem C01_reference_shared_with_data_refuted :
  exists ref x h h1 h2 y z, wf h x /\ wf h (HV ref) /\ length ref = alen (rd h x) /\
  shift_inplace ref x h = (h1, Ok y) /\ unshift_inplace ref y h1 = (h2, Ok z) /\ z = x /\ rd h2 x <> rd h x.
Proof. exact C01_reference_view_refuted. Qed.
Print Assumptions C01_reference_shared_with_data_refuted.

(* C01: and holds in place when they share no storage. *)
Theorem C01_reference_apart_from_data :
  forall ref x h h1 y h2 z, wf h x -> disjoint (HV ref) x ->
  shift_inplace ref x h = (h1, Ok y) -> unshift_inplace ref y h1 = (h2, Ok z) ->
  y = x /\ z = x /\ rd h2 x = rd h x /\ rd h1 (HV ref) = rd h (HV ref).
Proof. exact C01_reference_apart. Qed.
Print Assumptions C01_reference_apart_from_data.

Example C01_case_pipe : trained 2 (TPipe [TShift [1; 2]%R None; TScale (Sc 2) (Some 2) None] None). Proof. exact case_trained. Qed.
Example C01_case_multi : trained 3 (TMulti [TShift [1; 2]%R None; TScale (Vc [3]%R) (Some 1) None]). Proof. exact case_multi. Qed.
Example C01_case_fit : exists t' b, fit_transform (TSS {| ss_cent := true; ss_scaling := Some Standard; ss_byrow := true; ss_name := None;
  ss_n := None; ss_mean := None; ss_scale := None; ss_shift := None |}) (M [[0; 1]; [2; 5]]%R) = Ok (t', b).
Proof. exact case_fit. Qed.
Example C01_case_apart : exists ref x h, wf h x /\ disjoint (HV ref) x /\ length ref = alen (rd h x). Proof. exact case_apart. Qed.

(* C02: the inverse at selected rows is the selection of the inverse, for transformers and pipelines; a wrong number of
   rows is rejected. *)
Theorem C02_inverse_at_locations :
  forall (t : tf) (n : nat), trained n t -> flat t -> forall (s : locsel) (idx : list nat), selects n s idx ->
  (forall a b, alen b = n -> inverse_transform t None b = Ok a -> inverse_transform t (Some s) (asel idx b) = Ok (asel idx a)) /\
  (forall b, alen b <> length idx -> inverse_transform t (Some s) b = Err ValueError).
Proof. exact C02_flat. Qed.
Print Assumptions C02_inverse_at_locations.

(* C02: TransformerMulti selects the same rows of every variable... *)
Theorem C02_multi_at_locations :
  forall (n : nat) (l : list tf) (s : locsel) (idx : list nat), l <> [] -> Forall (trained n) l -> Forall flat l -> selects n s idx ->
  let ns := repeat n (length l) in
  forall a b bs, alen b = lsumn ns -> inverse_transform (TMulti l) None b = Ok a -> aconcat (map (asel idx) (split_rows ns b)) = Ok bs ->
  exists as', aconcat (map (asel idx) (split_rows ns a)) = Ok as' /\ inverse_transform (TMulti l) (Some s) bs = Ok as'.
Proof. exact C02_multi. Qed.
Print Assumptions C02_multi_at_locations.

(* C02: ... and refuses locs if the variables differ in size. *)
Theorem C02_multi_unequal_sizes :
  forall (l : list tf) (ns : list nat) (s : locsel) (b : arr), Forall2 trained ns l -> (exists x y, In x ns /\ In y ns /\ x <> y) ->
  inverse_transform (TMulti l) (Some s) b = Err ValueError.
Proof. exact C02_multi_sizes. Qed.
Print Assumptions C02_multi_unequal_sizes.

(* C02 fails for ShiftScaleTransformer(scaling=None, byrow=True): locs raises TypeError. *)
Theorem C02_byrow_without_scaling_refuted :
  exists (t : tf) (b : arr), trained 1 t /\ alen b = 1 /\ (exists a, inverse_transform t None b = Ok a) /\
  inverse_transform t (Some (LIdx [0%Z])) (asel [0] b) = Err TypeError.
Proof. exact C02_byrow_refuted. Qed.
Print Assumptions C02_byrow_without_scaling_refuted.

Example C02_case : flat (TPipe [TShift [1; 2]%R None; TScale (Sc 2) (Some 2) None] None) /\ selects 2 (LIdx [-1; 0; 1]%Z) [1; 0; 1].
Proof. exact case_flat. Qed.

(* C03: the training data that fit_transform returns has the statistics its scaling is documented to give. *)
Theorem C03_documented_statistics :
  forall (s : ss) (sc : scaling) (n k : nat) (Y : mat) (t' : tf) (b : arr),
  ss_scaling s = Some sc -> is_mat n k Y -> fit_transform (TSS s) (M Y) = Ok (t', b) ->
  exists B, b = M B /\ is_mat n k B /\ documented sc (ss_byrow s) n k B.
Proof. exact C03_documented. Qed.
Print Assumptions C03_documented_statistics.

(* C03: with centering every row has mean zero, for the scalings that do not move means. *)
Theorem C03_centered_rows :
  forall (s : ss) (Y : mat) (t' : tf) (b : arr), ss_cent s = true -> keeps_means (ss_scaling s) -> fit_transform (TSS s) (M Y) = Ok (t', b) ->
  exists B, b = M B /\ forall row, In row B -> mean_is 0 row.
Proof. exact C03_rows. Qed.
Print Assumptions C03_centered_rows.

(* C03: fitting succeeds on all data that is not degenerate for the scaling. *)
Theorem C03_fit_succeeds :
  forall (s : ss) (n k : nat) (Y : mat), is_mat n k Y -> 0 < k -> (ss_byrow s = true -> ss_scaling s <> Some Maxnorm /\ ss_scaling s <> Some Maxnormsym) ->
  (forall sc, ss_scaling s = Some sc -> scalable sc (ss_byrow s) (if ss_cent s then center_rows Y else Y)) ->
  exists t' b, fit_transform (TSS s) (M Y) = Ok (t', b).
Proof. exact C03_total. Qed.
Print Assumptions C03_fit_succeeds.

Example C03_case : forall sc, is_mat 1 2 [[1; 3]]%R /\ scalable sc false [[1; 3]]%R /\ scalable sc true [[1; 3]]%R. Proof. exact case_scalable. Qed.

(* C04: transform(Q + h D) = transform(Q) + h transform_ddts(D), for every transformer, Q, D and h. *)
Theorem C04_ddts_is_the_derivative :
  forall (t : tf) (n : nat), trained n t -> forall a h d, alen a = n -> same_shape a d ->
  exists b e, transform t a = Ok b /\ transform_ddts t d = Ok e /\ transform t (acomb a h d) = Ok (acomb b h e) /\ same_shape a b /\ same_shape d e.
Proof. exact C04_all. Qed.
Print Assumptions C04_ddts_is_the_derivative.

(* C05: a pipeline runs its members first to last, and its inverse runs theirs last to first, with or without locs. *)
Theorem C05_order_of_members :
  forall (l : list tf) nm (a b : arr), l <> [] ->
  (transform (TPipe l nm) a = Ok b <-> runs transform l a b) /\
  (transform_ddts (TPipe l nm) a = Ok b <-> runs transform_ddts l a b) /\
  (forall locs, inverse_transform (TPipe l nm) locs a = Ok b <-> runs (fun t => inverse_transform t locs) (rev l) a b).
Proof. exact C05_order. Qed.
Print Assumptions C05_order_of_members.

(* C05: each member is fitted on the output of the members before it. *)
Theorem C05_training_order :
  forall (l : list tf) nm (a : arr) (t' : tf) (b : arr), l <> [] ->
  (fit_transform (TPipe l nm) a = Ok (t', b) <-> exists l', t' = TPipe l' nm /\ trains l a l' b).
Proof. exact C05_training. Qed.
Print Assumptions C05_training_order.

(* C05: a pipeline round-trips whenever each of its members does. *)
Theorem C05_round_trip :
  forall (l : list tf) nm (n : nat), l <> [] ->
  (forall t, In t l -> forall a, alen a = n -> exists b, transform t a = Ok b /\ alen b = n /\ inverse_transform t None b = Ok a) ->
  forall a, alen a = n -> exists b, transform (TPipe l nm) a = Ok b /\ alen b = n /\ inverse_transform (TPipe l nm) None b = Ok a.
Proof. exact C05_roundtrip. Qed.
Print Assumptions C05_round_trip.

(* C05: the constructor refuses the tuple its documentation asks for. *)
Theorem C05_tuple_refuted : forall (l : list tf) nm, mk_pipe (PTuple l) nm = Err TypeError.
Proof. exact C05_tuple. Qed.
Print Assumptions C05_tuple_refuted.

Example C05_case : runs transform [TShift [1%R] None; TScale (Sc 2) (Some 1) None] (V [3%R]) (V [((3 - 1) * 2)%R]). Proof. exact case_runs. Qed.

(* C06: split returns one block of rows per variable, in order; their concatenation is the data. *)
Theorem C06_split_concatenates :
  forall (ns : list nat) (l : list tf) (a : arr), l <> [] -> Forall2 trained ns l -> alen a = lsumn ns ->
  exists qs, multi_split (variable_sizes l) a = Ok qs /\ length qs = length l /\ aconcat qs = Ok a /\
  forall i, i < length l -> nth i qs (V []) = var_rows ns i a /\ alen (nth i qs (V [])) = nth i ns 0.
Proof. exact C06_split. Qed.
Print Assumptions C06_split_concatenates.

(* C06: get_var returns that block, by index or by (the first occurrence of) the name. *)
Theorem C06_get_var_rows :
  forall (ns : list nat) (l : list tf) (a : arr), Forall2 trained ns l -> alen a = lsumn ns ->
  (forall i, i < length l -> get_var l (VIdx (Z.of_nat i)) a = Ok (var_rows ns i a)) /\
  (forall i s, nth_error (map tf_name l) i = Some (Some s) -> (forall k, k < i -> nth_error (map tf_name l) k <> Some (Some s)) ->
     get_var l (VName s) a = Ok (var_rows ns i a)).
Proof. exact C06_get_vars. Qed.
Print Assumptions C06_get_var_rows.

(* C06: variable i of the result is transformer i applied to variable i of the argument. *)
Theorem C06_acts_variable_by_variable :
  forall (ns : list nat) (l : list tf) (a b : arr), Forall2 trained ns l -> alen a = lsumn ns -> forall i, i < length l -> let ti := nth i l (TNull None None) in
  (transform (TMulti l) a = Ok b -> exists q r, get_var l (VIdx (Z.of_nat i)) a = Ok q /\ get_var l (VIdx (Z.of_nat i)) b = Ok r /\ transform ti q = Ok r) /\
  (transform_ddts (TMulti l) a = Ok b -> exists q r, get_var l (VIdx (Z.of_nat i)) a = Ok q /\ get_var l (VIdx (Z.of_nat i)) b = Ok r /\ transform_ddts ti q = Ok r) /\
  (inverse_transform (TMulti l) None a = Ok b -> exists q r, get_var l (VIdx (Z.of_nat i)) a = Ok q /\ get_var l (VIdx (Z.of_nat i)) b = Ok r /\ inverse_transform ti None q = Ok r).
Proof. exact C06_by_variable. Qed.
Print Assumptions C06_acts_variable_by_variable.

(* C06: wrong row counts are rejected (DimensionalityError is a ValueError), also when the sizes have to be learned. *)
Theorem C06_wrong_row_counts :
  forall (l : list tf) (a : arr),
  (forall ns, Forall2 trained ns l -> alen a <> lsumn ns ->
     transform (TMulti l) a = Err DimensionalityError /\ transform_ddts (TMulti l) a = Err DimensionalityError /\
     inverse_transform (TMulti l) None a = Err DimensionalityError /\ multi_split (variable_sizes l) a = Err DimensionalityError /\
     (forall v, get_var l v a = Err DimensionalityError) /\ fit_transform (TMulti l) a = Err DimensionalityError) /\
  (l <> [] -> allsome (variable_sizes l) = None -> alen a mod length l <> 0 -> fit_transform (TMulti l) a = Err DimensionalityError).
Proof. exact C06_wrong. Qed.
Print Assumptions C06_wrong_row_counts.

(* C06: get_var(-1) is not the last variable but an empty array. *)
Theorem C06_get_var_minus_one_refuted :
  exists l a, trained 2 (TMulti l) /\ length l = 2 /\ alen a = 2 /\ get_var l (VIdx (-1)) a = Ok (V []) /\ get_var l (VIdx 1) a = Ok (V [8%R]).
Proof. exact C06_last_variable_refuted. Qed.
Print Assumptions C06_get_var_minus_one_refuted.

Example C06_case : Forall2 trained [2; 1] [TShift [1; 2]%R None; TScale (Vc [3]%R) (Some 1) None]. Proof. exact case_multi_sizes. Qed.

(* C07: shift(Q) returns the data less the row means, and the means; shifting by minus the means restores Q. *)
Theorem C07_shift_by_the_mean :
  forall (n k : nat) (Q : mat), is_mat n k Q -> 0 < k -> exists B m, shift_fn (M Q) None = Ok (M B, Some m) /\ length m = n /\ is_mat n k B /\
  (forall i, i < n -> mean_is (vget m i) (nth i Q [])) /\
  (forall i j, i < n -> j < k -> mget B i j = (mget Q i j - vget m i)%R) /\ (forall row, In row B -> mean_is 0 row) /\
  shift_fn (M Q) (Some (V m)) = Ok (M B, None) /\ shift_fn (M B) (Some (V (map Ropp m))) = Ok (M Q, None).
Proof. exact C07_shift_mean. Qed.
Print Assumptions C07_shift_by_the_mean.

(* C07: shift(Q, v) subtracts v from every column, and shift(., -v) restores Q; an (n, 1) array does the same. *)
Theorem C07_shift_by_a_vector :
  forall (n k : nat) (Q : mat) (v : vec), is_mat n k Q -> length v = n ->
  (exists B, shift_fn (M Q) (Some (V v)) = Ok (M B, None) /\ is_mat n k B /\
     (forall i j, i < n -> j < k -> mget B i j = (mget Q i j - vget v i)%R) /\ shift_fn (M B) (Some (V (map Ropp v))) = Ok (M Q, None)) /\
  (0 < n -> shift_fn (M Q) (Some (M (map (fun x => [x]) v))) = shift_fn (M Q) (Some (V v))).
Proof. exact C07_shift_vec. Qed.
Print Assumptions C07_shift_by_a_vector.

(* C07: scale(Q, [a, b], [c, d]) is q -> a + (q - c)(b - a)/(d - c) on every entry, and scale(., [c, d], [a, b]) restores
   Q. *)
Theorem C07_scale_between_intervals :
  forall (x : arr) (a b c d : R), c <> d -> exists y, scale_fn x [a; b] (Some [c; d]) = Ok (y, None) /\ same_shape x y /\
  aflat y = map (fun q => a + (q - c) * (b - a) / (d - c))%R (aflat x) /\ (a <> b -> scale_fn y [c; d] (Some [a; b]) = Ok (x, None)).
Proof. exact C07_scale_given. Qed.
Print Assumptions C07_scale_between_intervals.

(* C07: without scale_from the result has minimum a and maximum b, and the returned interval undoes it. *)
Theorem C07_scale_from_the_data :
  forall (x : arr) (a b : R), varies (aflat x) -> (a < b)%R -> exists y lo hi, scale_fn x [a; b] None = Ok (y, Some [lo; hi]) /\ same_shape x y /\
  is_min lo (aflat x) /\ is_max hi (aflat x) /\ is_min a (aflat y) /\ is_max b (aflat y) /\ scale_fn y [lo; hi] (Some [a; b]) = Ok (x, None).
Proof. exact C07_scale_learn. Qed.
Print Assumptions C07_scale_from_the_data.

Example C07_case : varies (aflat (M [[1; 3]; [2; 2]]%R)). Proof. exact case_varies. Qed.

(* C08: the four methods respect the inplace flag (see respects_inplace), on any memory, also when they raise. *)
Theorem C08_methods_respect_inplace :
  forall t : tf, respects_inplace (htransform t) (no_output (transform t)) /\ respects_inplace (htransform_ddts t) (no_output (transform_ddts t)) /\
  (forall locs, respects_inplace (hinverse locs t) (no_output (inverse_transform t locs))) /\ respects_inplace (hfit_transform t) (fit_transform t).
Proof. exact C08_all. Qed.
Print Assumptions C08_methods_respect_inplace.

(* C08: an array keeps its value through any sequence of calls none of which is in place on storage it shares. *)
Theorem C08_any_sequence_of_calls :
  forall (z : harr) (h h' : heap), wf h z -> history z h h' -> rd h' z = rd h z.
Proof. exact C08_history. Qed.
Print Assumptions C08_any_sequence_of_calls.

(* C08: transforming in place and inverting in place returns the argument itself, holding what it held at first. *)
Theorem C08_in_place_round_trip :
  forall (t : tf) (n : nat) (h : heap) (x : harr) (h1 h2 : heap) r1 r2, trained n t -> wf h x -> alen (rd h x) = n ->
  htransform t true x h = (h1, r1) -> hinverse None t true x h1 = (h2, r2) -> r1 = Ok (tt, x) /\ r2 = Ok (tt, x) /\ rd h2 x = rd h x.
Proof. exact C08_roundtrip. Qed.
Print Assumptions C08_in_place_round_trip.

Example C08_case : exists z h h', wf h z /\ history z h h' /\ h' <> h. Proof. exact case_history. Qed.

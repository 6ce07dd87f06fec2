(* Prop_Item.v -- property C77 (variables by position and by name), and fit() of TransformerMulti (C06). *)
From Coq Require Import String ZArith Reals Lra Lia List.
From Verif Require Import LinAlg PreFinal BasisProofs BasisMultiProofs BasisNames ItemModel ItemProofs PreFitVars SpecBasis.
From Verif Require Import SpecItem.
#[local] Open Scope nat_scope.
#[local] Open Scope list_scope.

(* C06: fit_transform() of TransformerMulti trains transformer i on variable i, with nothing changed before but state dimensions: none if all sizes are known, and a size that is not known is the number of rows divided by the number of variables. *)
Theorem C06_fit_each_variable :
  forall l a t' b,
  fit_transform (TMulti l) a = Ok (t', b) ->
  exists l' ns, t' = TMulti l' /\ length l' = length l /\ length ns = length l /\ alen a = lsumn ns /\
    forall i t, nth_error l i = Some t -> exists t0, same_transformer t t0 /\ tf_name t0 = tf_name t /\ tf_dim t0 = Some (nth i ns 0) /\
      ((forall u, In u l -> tf_dim u <> None) -> t0 = t) /\
      (tf_dim t = None -> nth i ns 0 * length l = alen a) /\
      exists t1 r, nth_error l' i = Some t1 /\ fit_transform t0 (var_rows ns i a) = Ok (t1, r).
Proof. exact fit_by_variable. Qed.
Print Assumptions C06_fit_each_variable.

(* C77: TransformerMulti keeps the transformers in order and changes nothing but names and state dimensions: unnamed ones become "variable i", and with variable_sizes each has the given size. The errors: ValueError exactly for no transformers, a wrong number of sizes, or a size that is not that of a transformer that has one; AttributeError for a nested TransformerMulti and for a pipeline without a size. *)
Theorem C77_constructor :
  forall l sizes,
  match mk_multi l sizes with
  | Ok t => exists l', t = TMulti l' /\ l <> [] /\ length l' = length l /\ (forall ns, sizes = Some ns -> length ns = length l) /\
      forall i o, nth_error l i = Some o -> ~ multi (given o) /\ exists t', nth_error l' i = Some t' /\ same_transformer (given o) t' /\
        tf_name t' = Some (match tf_name (given o) with Some s => s | None => variable_name i end) /\
        tf_dim t' = (match sizes with Some ns => nth_error ns i | None => tf_dim (given o) end) /\
        (forall n, tf_dim (given o) = Some n -> tf_dim t' = Some n) /\ (sizes <> None -> tf_dim (given o) = None -> ~ pipeline (given o))
  | Err e =>
      (e = ValueError /\ (l = [] \/ exists ns, sizes = Some ns /\ (length ns <> length l \/ exists i o n m, nth_error l i = Some o /\ tf_dim (given o) = Some n /\ nth_error ns i = Some m /\ n <> m))) \/
      (e = AttributeError /\ exists i o, nth_error l i = Some o /\ (multi (given o) \/ sizes <> None /\ pipeline (given o) /\ tf_dim (given o) = None))
  end.
Proof. exact new_tmulti. Qed.
Print Assumptions C77_constructor.

(* C77: multi[key] is the member the key refers to; it raises exactly if the key refers to none, TypeError for a name and IndexError for a number. *)
Theorem C77_item :
  forall {A} (name : A -> option pystr) l key,
  match getitem name l key with
  | Ok x => exists i, refers name l key i /\ nth_error l i = Some x
  | Err e => (forall i, ~ refers name l key i) /\ e = match key with VName _ => TypeError | VIdx _ => IndexError end
  end.
Proof. exact @item_refers. Qed.
Print Assumptions C77_item.

(* C77: a key refers to one member only. *)
Theorem C77_one_member :
  forall {A} (name : A -> option pystr) l key i j,
  refers name l key i -> refers name l key j -> i = j.
Proof. exact @refers_unique. Qed.
Print Assumptions C77_one_member.

(* C77: for a name or a number that is not negative, multi[key] is the transformer of the variable get_var(key) returns. *)
Theorem C77_item_and_variable :
  forall ns l a key t,
  Forall2 trained ns l -> alen a = lsumn ns -> (forall z, key = VIdx z -> (0 <= z)%Z) ->
  tf_getitem l key = Ok t -> exists i, nth_error l i = Some t /\ get_var l key a = Ok (var_rows ns i a).
Proof. exact item_get_var. Qed.
Print Assumptions C77_item_and_variable.

(* C77: the same for bases, of full and of reduced states. *)
Theorem C77_basis_and_variable :
  forall ns rs bs a key b,
  members ns rs bs -> (forall z, key = VIdx z -> (0 <= z)%Z) -> b_getitem bs key = Ok b ->
  exists i, nth_error bs i = Some b /\ (alen a = lsumn ns -> bget_var bs key a = Ok (var_rows ns i a)) /\
    (alen a = lsumn rs -> Forall2 le rs ns -> bget_var bs key a = Ok (var_rows rs i a)).
Proof. exact item_bget_var. Qed.
Print Assumptions C77_basis_and_variable.

(* C77: what get_var does with negative numbers: -(k+1) is the k-th variable from the end, and -1 is always empty. *)
Theorem C77_negative_get_var :
  forall ns l a,
  Forall2 trained ns l -> alen a = lsumn ns ->
  (forall k, 0 < k <= length l -> get_var l (VIdx (- Z.of_nat (k + 1))) a = Ok (var_rows ns (length l - k) a)) /\
  get_var l (VIdx (-1)) a = Ok (match a with V _ => V [] | M _ => M [] end).
Proof. exact get_var_end. Qed.
Print Assumptions C77_negative_get_var.

(* C77: the same for bases, of full and of reduced states. *)
Theorem C77_negative_basis_get_var :
  forall ns rs bs a,
  members ns rs bs -> Forall2 le rs ns ->
  (forall sizes, alen a = lsumn sizes -> sizes = ns \/ sizes = rs ->
    (forall k, 0 < k <= length bs -> bget_var bs (VIdx (- Z.of_nat (k + 1))) a = Ok (var_rows sizes (length bs - k) a)) /\
    bget_var bs (VIdx (-1)) a = Ok (match a with V _ => V [] | M _ => M [] end)).
Proof. exact bget_var_end. Qed.
Print Assumptions C77_negative_basis_get_var.

(* C77: so multi[-1] is not the transformer of the variable get_var(-1). *)
Theorem C77_negative_refuted :
  exists ns l a i t, Forall2 trained ns l /\ alen a = lsumn ns /\ nth_error l i = Some t /\ tf_getitem l (VIdx (-1)) = Ok t /\ get_var l (VIdx (-1)) a <> Ok (var_rows ns i a).
Proof. exact negative_items_refuted. Qed.
Print Assumptions C77_negative_refuted.

(* C77: if no transformer was named, every one is reached by its default name. *)
Theorem C77_default_names :
  forall l sizes l',
  mk_multi l sizes = Ok (TMulti l') -> (forall o, In o l -> tf_name (given o) = None) ->
  forall i t, nth_error l' i = Some t -> tf_getitem l' (VName (variable_name i)) = Ok t.
Proof. exact default_items. Qed.
Print Assumptions C77_default_names.

(* C77: the same for bases. *)
Theorem C77_basis_default_names :
  forall bs sizes bs',
  mk_bmulti bs sizes = Ok bs' -> (forall b, In b bs -> b_name b = None) ->
  forall i b, nth_error bs' i = Some b -> b_getitem bs' (VName (variable_name i)) = Ok b.
Proof. exact default_bitems. Qed.
Print Assumptions C77_basis_default_names.

(* C77: but a transformer may not be reached by its own name if a default name collides with a chosen one. *)
Theorem C77_own_name_refuted :
  exists l l', mk_multi l None = Ok (TMulti l') /\ exists t0 t1, nth_error l' 0 = Some t0 /\ nth_error l' 1 = Some t1 /\ t0 <> t1 /\
  tf_name t1 = Some (variable_name 1) /\ tf_getitem l' (VName (variable_name 1)) = Ok t0.
Proof. exact own_name_refuted. Qed.
Print Assumptions C77_own_name_refuted.

Example C77_names_case : variable_name 0 = "variable 0"%string /\ variable_name 12 = "variable 12"%string.
Proof. split; reflexivity. Qed.
Example C77_constructor_case : exists l', mk_multi [Some (TShift [1; 2]%R None); None; Some (TScale (Sc 3) None (Some "p"%string))] (Some [2; 4; 1]) = Ok (TMulti l') /\
  map tf_name l' = [Some "variable 0"%string; Some "variable 1"%string; Some "p"%string] /\ map tf_dim l' = [Some 2; Some 4; Some 1] /\
  tf_getitem l' (VName "p") = Ok (TScale (Sc 3) (Some 1) (Some "p"%string)) /\ tf_getitem l' (VIdx (-3)) = Ok (TShift [1; 2]%R (Some "variable 0"%string)).
Proof. eexists. split; [reflexivity|]. repeat split; reflexivity. Qed.
Example C77_refers_case : refers tf_name [TShift [1]%R (Some "a"%string); TShift [2]%R (Some "b"%string)] (VName "b") 1 /\
  refers tf_name [TShift [1]%R (Some "a"%string); TShift [2]%R (Some "b"%string)] (VIdx (-2)) 0.
Proof. split; [|exact (from_the_end tf_name [TShift [1]%R (Some "a"%string); TShift [2]%R (Some "b"%string)] 2 ltac:(cbn; lia))].
  apply (by_name _ _ _ 1 (TShift [2]%R (Some "b"%string))). split; [reflexivity|]. split; [reflexivity|]. intros [|[|j]] y Hj E; cbn in E; try lia. injection E as <-. cbn. congruence. Qed.
Example C77_trained_case : Forall2 trained [2; 1] [TShift [1; 2]%R (Some "a"%string); TScale (Vc [3]%R) (Some 1) None].
Proof. repeat constructor; cbn; try lra; auto. Qed.
Example C06_fit_case : exists t' b, fit_transform (TMulti [TShift [1; 2]%R None; TNull None None]) (M [[5]; [6]; [7]; [8]]%R) = Ok (t', b) /\ transform t' (V [5; 6; 7; 8]%R) = Ok (V [5 - 1; 6 - 2; 7; 8]%R).
Proof. do 2 eexists. split; [reflexivity|]. cbn. reflexivity. Qed.

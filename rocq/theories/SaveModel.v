(* SaveModel.v -- the save() and load() methods: pre/_shiftscale.py, pre/_multi.py, basis/_linear.py, basis/_pod.py,
   basis/_multi.py, operators/_base.py, operators/_affine.py, operators/_interpolate.py, lstsq/_base.py,
   lstsq/_tikhonov.py, lstsq/_tsvd.py, lstsq/_total.py, models/mono/_nonparametric.py, models/mono/_parametric.py and the
   OperatorPosterior of roms/_bayes.py.  A save() is the list of its h5py calls; a load() reads a tree.
   The datasets "transformation/mean_" etc. are given as members of that name.  The verbose flag, the LAPACK driver
   of the solvers based on an SVD, and warnings are left out.  No proofs here. *)
From Coq Require Import ZArith String.
From Verif Require Export HdfModel ParaModel BasisModel.
#[local] Open Scope string_scope.
#[local] Open Scope nat_scope.
#[local] Open Scope list_scope.

(* hf.create_dataset(nm, shape=(0,)) *)
Definition empty (nm : str) : wev := EData nm (Some (DV [])).
(* str(name) *)
Definition name_str (nm : option str) : str := match nm with Some s => s | None => "None" end.
(* None if name == "None" else name *)
Definition str_name (s : str) : option str := if String.eqb s "None" then None else Some s.
Definition when {A} (x : option A) (f : A -> list wev) : list wev := match x with Some a => f a | None => [] end.

(* ---- transformers ---------------------------------------------------------------------------------------------------- *)
Definition scaling_str (s : scaling) : str :=
  match s with Standard => "standard" | Minmax => "minmax" | Minmaxsym => "minmaxsym" | Maxabs => "maxabs" | Maxabssym => "maxabssym"
  | Maxnorm => "maxnorm" | Maxnormsym => "maxnormsym" end.
Definition scaling_of (s : str) : res scaling :=                                            (* _shiftscale.py:853-860 *)
  if String.eqb s "standard" then Ok Standard else if String.eqb s "minmax" then Ok Minmax
  else if String.eqb s "minmaxsym" then Ok Minmaxsym else if String.eqb s "maxabs" then Ok Maxabs
  else if String.eqb s "maxabssym" then Ok Maxabssym else if String.eqb s "maxnorm" then Ok Maxnorm
  else if String.eqb s "maxnormsym" then Ok Maxnormsym else Err ValueError.
(* data=self.scale_ if self.byrow else [self.scale_].  (An array without byrow is outside the model.) *)
Definition coef_dset (byrow : bool) (c : option PreModel.coef) : option dval :=
  match byrow, c with
  | true, Some (Vc v) => Some (DV v)
  | true, Some (Sc x) => Some (D0 x)
  | false, Some (Sc x) => Some (DV [x])
  | _, _ => None
  end.
Definition ss_events (s : ss) : list wev :=                                                 (* _shiftscale.py:1294-1320 *)
  [empty "meta"; EAttr "meta" "centering" (AvB (ss_cent s));
   EAttr "meta" "scaling" (match ss_scaling s with Some c => AvS (scaling_str c) | None => AvB false end);
   EAttr "meta" "byrow" (AvB (ss_byrow s)); EAttr "meta" "name" (AvS (name_str (ss_name s)));
   EAttr "meta" "state_dimension" (match ss_n s with Some n => AvI (Z.of_nat n) | None => AvB false end)]
  ++ (if ss_cent s then when (ss_mean s) (fun v => [EData "transformation/mean_" (Some (DV v))]) else [])
  ++ (match ss_scaling s, ss_scale s with
      | Some _, Some c => [EData "transformation/scale_" (coef_dset (ss_byrow s) (Some c)); EData "transformation/shift_" (coef_dset (ss_byrow s) (ss_shift s))]
      | _, _ => []
      end).
Fixpoint tf_events (t : tf) : list wev :=
  match t with
  | TShift ref nm =>                                                                        (* _shiftscale.py:347-351 *)
      [empty "meta"; EAttr "meta" "name" (AvS (name_str nm)); EData "reference_snapshot" (Some (DV ref))]
  | TScale c n nm =>                                                                        (* _shiftscale.py:631-638 *)
      [empty "meta"; EAttr "meta" "name" (AvS (name_str nm))] ++ when n (fun n => [EAttr "meta" "state_dimension" (AvI (Z.of_nat n))])
      ++ [EData "scaler" (Some (DV (match c with Vc v => v | Sc x => [x] end)))]
  | TSS s => ss_events s
  | TNull n nm =>                                                                           (* _multi.py:308-313 *)
      [empty "meta"; EAttr "meta" "name" (AvS (name_str nm))] ++ when n (fun n => [EAttr "meta" "state_dimension" (AvI (Z.of_nat n))])
  | TPipe l nm =>                                                                           (* _multi.py:134-140 *)
      [empty "meta"; EAttr "meta" "name" (AvS (name_str nm)); EAttr "meta" "num_transformers" (AvI (Z.of_nat (length l)))]
      ++ egroups (fun i => String.append "transformer_" (dec2 i)) tf_events 0 l
  | TMulti l =>                                                                             (* _multi.py:707-711 *)
      EData "num_variables" (Some (DZ [Z.of_nat (length l)])) :: egroups (fun i => String.append "variable" (dec i)) tf_events 0 l
  end.

(* the setters of mean_, scale_ and shift_: _shiftscale.py:914-925, 934-946, 955-967 *)
Definition ss_put (n : option nat) (mean : option vec) (scl sh : option PreModel.coef) (s : ss) : ss :=
  {| ss_cent := ss_cent s; ss_scaling := ss_scaling s; ss_byrow := ss_byrow s; ss_name := ss_name s;
     ss_n := n; ss_mean := mean; ss_scale := scl; ss_shift := sh |}.
Definition fix_n (n : option nat) (c : PreModel.coef) : res nat :=
  match c with
  | Sc _ => Err ValueError
  | Vc v => match n with None => Ok (length v) | Some k => if length v =? k then Ok k else Err ValueError end
  end.
Definition ss_set_mean (v : vec) (s : ss) : res ss :=
  if negb (ss_cent s) then Err AttributeError
  else do n <- fix_n (ss_n s) (Vc v); Ok (ss_put (Some n) (Some v) (ss_scale s) (ss_shift s) s).
Definition ss_set_scale (c : PreModel.coef) (s : ss) : res ss :=
  if is_none (ss_scaling s) then Err AttributeError
  else if ss_byrow s then do n <- fix_n (ss_n s) c; Ok (ss_put (Some n) (ss_mean s) (Some c) (ss_shift s) s)
  else Ok (ss_put (ss_n s) (ss_mean s) (Some c) (ss_shift s) s).
Definition ss_set_shift (c : PreModel.coef) (s : ss) : res ss :=
  if is_none (ss_scaling s) then Err AttributeError
  else if ss_byrow s then do n <- fix_n (ss_n s) c; Ok (ss_put (Some n) (ss_mean s) (ss_scale s) (Some c) s)
  else Ok (ss_put (ss_n s) (ss_mean s) (ss_scale s) (Some c) s).
(* hf[...][:] with byrow, hf[...][0] without *)
Definition read_coef (byrow : bool) (d : dval) : res PreModel.coef :=
  do v <- as_vec d; if byrow then Ok (Vc v) else do x <- head0 v; Ok (Sc x).
Definition ss_load (g : node) : res tf :=                                                   (* _shiftscale.py:1323-1349 *)
  do a <- meta_attr "scaling" g;
  do sc <- match a with
           | AvS s => if String.eqb s "" then Ok None else do c <- scaling_of s; Ok (Some c)
           | AvB false => Ok None
           | _ => Err TypeError
           end;
  do a <- meta_attr "name" g; do nm <- as_str a;
  do a <- meta_attr "centering" g; do cent <- as_bool a;
  do a <- meta_attr "byrow" g; do byrow <- as_bool a;
  do s <- ss_init cent sc byrow (str_name nm);
  do a <- meta_attr "state_dimension" g;
  do n <- match a with AvI z => Ok (if (z =? 0)%Z then None else Some (Z.to_nat z)) | AvB false => Ok None | _ => Err OtherError end;
  let s := ss_put n None None None s in
  do s <- (if ss_cent s && has "transformation/mean_" g
           then do d <- dset "transformation/mean_" g; do v <- as_vec d; ss_set_mean v s else Ok s);
  do s <- (if negb (is_none (ss_scaling s)) && has "transformation/scale_" g
           then do d <- dset "transformation/scale_" g; do c <- read_coef (ss_byrow s) d; do s <- ss_set_scale c s;
                do d <- dset "transformation/shift_" g; do c <- read_coef (ss_byrow s) d; ss_set_shift c s
           else Ok s);
  Ok (TSS s).

(* the classes a user names when loading *)
Inductive tfc := KShift | KScale | KSS | KNull | KPipe | KMulti.
Definition tf_class (t : tf) : tfc :=
  match t with TShift _ _ => KShift | TScale _ _ _ => KScale | TSS _ => KSS | TNull _ _ => KNull | TPipe _ _ => KPipe | TMulti _ => KMulti end.
Definition dim_attr (g : node) : res (option nat) :=
  do m <- item "meta" g;
  match assoc "state_dimension" (attrs_of m) with None => Ok None | Some a => do z <- as_int a; Ok (Some (Z.to_nat z)) end.
(* Class.load(group), without further arguments: TransformerPipeline and TransformerMulti need one more *)
Definition tf_load1 (k : tfc) (g : node) : res tf :=
  match k with
  | KShift =>                                                                               (* _shiftscale.py:354-360 *)
      do a <- meta_attr "name" g; do nm <- as_str a;
      do d <- dset "reference_snapshot" g; do v <- as_vec d; mk_shift (V v) (str_name nm)
  | KScale =>                                                                               (* _shiftscale.py:641-651 *)
      do a <- meta_attr "name" g; do nm <- as_str a;
      do d <- dset "scaler" g; do v <- as_vec d;
      do t <- mk_scale (match v with [x] => Sc x | _ => Vc v end) (str_name nm);
      match t with
      | TScale (Sc x) n nm => do k <- dim_attr g; Ok (TScale (Sc x) (match k with Some k => Some k | None => n end) nm)
      | _ => Ok t
      end
  | KSS => ss_load g
  | KNull =>                                                                                (* _multi.py:316-323 *)
      do a <- meta_attr "name" g; do nm <- as_str a; do k <- dim_attr g; Ok (TNull k (str_name nm))
  | KPipe | KMulti => Err TypeError
  end.
(* TransformerPipeline.load(file, classes): _multi.py:143-172 *)
Definition pipe_load (ks : list tfc) (g : node) : res tf :=
  do a <- meta_attr "name" g; do nm <- as_str a;
  do a <- meta_attr "num_transformers" g; do n <- as_int a;
  raise_if negb (Z.of_nat (length ks) =? n)%Z with ValueError;;
  do l <- lgroups (fun i => String.append "transformer_" (dec2 i)) g 0 (map tf_load1 ks);
  mk_pipe (PList l) (Some nm).
(* one class for all variables, or one for each: _multi.py:731-737 *)
Inductive classes (A : Type) := One (k : A) | Each (ks : list A).
Arguments One {A} _. Arguments Each {A} _.
Definition num_variables {A} (g : node) (c : classes A) : res (list A) :=
  do d <- dset "num_variables" g; do l <- as_ints d; do n <- head0 l;
  let ks := match c with One k => repeat k (Z.to_nat n) | Each ks => ks end in
  raise_if negb (Z.of_nat (length ks) =? n)%Z with ValueError;; Ok ks.
(* TransformerMulti.load(file, classes): _multi.py:714-744 *)
Definition tmulti_load (c : classes tfc) (g : node) : res tf :=
  do ks <- num_variables g c;
  do l <- lgroups (fun i => String.append "variable" (dec i)) g 0 (map tf_load1 ks);
  mk_multi (map Some l) None.

(* ---- bases ------------------------------------------------------------------------------------------------------------- *)
(* if self.name: (an empty string is as good as None) *)
Definition named (nm : option str) : option str := match nm with Some s => if String.eqb s "" then None else Some s | None => None end.
Definition weight_dset (w : weight) : dval := match w with WDiag v => DV v | WMat m => DM m end.
Definition lb_events (b : lb) : list wev :=                                                 (* _linear.py:263-271 *)
  when (named (lb_name b)) (fun s => [empty "meta"; EAttr "meta" "name" (AvS s)])
  ++ [EData "entries" (Some (DM (lb_entries b)))] ++ when (lb_weights b) (fun w => [EData "weights" (Some (weight_dset w))]).
Definition read_weights (g : node) : res (option weight) :=
  if has "weights" g
  then do d <- dset "weights" g; match d with DV v => Ok (Some (WDiag v)) | DM m => Ok (Some (WMat m)) | _ => Err OtherError end
  else Ok None.
Definition lb_load (g : node) : res lb :=                                                   (* _linear.py:286-292 *)
  do nm <- (if has "meta" g then do a <- meta_attr "name" g; do s <- as_str a; Ok (Some s) else Ok None);
  do d <- dset "entries" g; do A <- as_mat d; do W <- read_weights g;
  lb_init A W true nm.

Definition crit_name (c : crit) : str :=                                                    (* _pod.py:490-519 *)
  match c with CNum _ => "num_vectors" | CSval _ => "svdval_threshold" | CCum _ => "cumulative_energy" | CRes _ => "residual_energy"
  | CProj _ => "projection_error" end.
Definition crit_dset (c : crit) : dval := match c with CNum z => DZ [z] | CSval e | CCum e | CRes e | CProj e => DV [e] end.
Definition pod_events (p : pod) : list wev :=                                               (* _pod.py:968-990 *)
  empty "meta" :: when (named (p_name p)) (fun s => [EAttr "meta" "name" (AvS s)])
  ++ [EAttr "meta" "criterion_type" (AvS (crit_name (p_crit p))); EData "criterion_value" (Some (crit_dset (p_crit p)))]
  ++ when (p_max p) (fun m => [EData "max_vectors" (Some (DZ [Z.of_nat m]))])
  ++ when (p_weights p) (fun w => [EData "weights" (Some (weight_dset w))])
  ++ when (p_left p) (fun L => [EData "leftvecs" (Some (DM L)); EData "svdvals" (option_map DV (p_svals p)); EData "rightvecs" (option_map DM (p_right p))]).
(* kwargs[criterion_type] = criterion_value[0] *)
Definition no_args : critargs := {| a_num := None; a_sval := None; a_cum := None; a_res := None; a_proj := None |}.
Definition crit_args (nm : str) (d : dval) : res critargs :=
  if String.eqb nm "num_vectors" then do l <- as_ints d; do z <- head0 l; Ok {| a_num := Some z; a_sval := None; a_cum := None; a_res := None; a_proj := None |}
  else do v <- as_vec d; do x <- head0 v;
    if String.eqb nm "svdval_threshold" then Ok {| a_num := None; a_sval := Some x; a_cum := None; a_res := None; a_proj := None |}
    else if String.eqb nm "cumulative_energy" then Ok {| a_num := None; a_sval := None; a_cum := Some x; a_res := None; a_proj := None |}
    else if String.eqb nm "residual_energy" then Ok {| a_num := None; a_sval := None; a_cum := None; a_res := Some x; a_proj := None |}
    else if String.eqb nm "projection_error" then Ok {| a_num := None; a_sval := None; a_cum := None; a_res := None; a_proj := Some x |}
    else Err TypeError.
Definition pod_load (X : ext) (maxv : option Z) (g : node) : res pod :=                      (* _pod.py:1008-1033 *)
  do m <- item "meta" g;
  do nm <- match assoc "name" (attrs_of m) with None => Ok None | Some a => do s <- as_str a; Ok (Some s) end;
  do a <- attr "criterion_type" m; do ty <- as_str a;
  do d <- dset "criterion_value" g; do ca <- crit_args ty d;
  do mx <- (if has "max_vectors" g then do d <- dset "max_vectors" g; do l <- as_ints d; do z <- head0 l; Ok (Some z) else Ok None);
  do W <- read_weights g;
  if has "leftvecs" g then
    do d <- dset "leftvecs" g; do L <- as_mat d;
    let r := option_map (Z.min (Z.of_nat (ncols L))) maxv in
    let ca := match r, a_num ca with
              | Some _, Some _ => {| a_num := r; a_sval := a_sval ca; a_cum := a_cum ca; a_res := a_res ca; a_proj := a_proj ca |}
              | _, _ => ca
              end in
    let cut A := match r with Some z => cols_to z A | None => A end in
    do d <- dset "svdvals" g; do s <- as_vec d;
    do d <- dset "rightvecs" g; do Rt <- as_mat d;
    from_svd X (cut L) s (Some (cut Rt)) ca mx W nm
  else pod_init X ca mx SDense W nm.

Inductive bclass := KLin | KPod.
Definition b_class (b : basis) : bclass := match b with BLin _ => KLin | BPod _ => KPod end.
Definition b_events (b : basis) : list wev := match b with BLin l => lb_events l | BPod p => pod_events p end.
Definition b_load (X : ext) (k : bclass) (g : node) : res basis :=
  match k with KLin => do l <- lb_load g; Ok (BLin l) | KPod => do p <- pod_load X None g; Ok (BPod p) end.
Definition bmulti_events (bs : list basis) : list wev :=                                     (* _multi.py:478-481 *)
  EData "num_variables" (Some (DZ [Z.of_nat (length bs)])) :: egroups (fun i => String.append "variable" (dec i)) b_events 0 bs.
Definition bmulti_load (X : ext) (c : classes bclass) (g : node) : res (list basis) :=       (* _multi.py:498-514 *)
  do ks <- num_variables g c;
  do l <- lgroups (fun i => String.append "variable" (dec i)) g 0 (map (b_load X) ks);
  mk_bmulti l None.

(* ---- operators ------------------------------------------------------------------------------------------------------------ *)
Definition base_name (c : cls) : str :=
  match c with CConst => "ConstantOperator" | CLin => "LinearOperator" | CPoly Quadratic => "QuadraticOperator"
  | CPoly Cubic => "CubicOperator" | CPoly Quartic => "QuarticOperator" | CInp => "InputOperator" | CStIn => "StateInputOperator" end.
(* getattr(operators, name) *)
Definition op_class (s : str) : res cls :=
  if String.eqb s "ConstantOperator" then Ok CConst else if String.eqb s "LinearOperator" then Ok CLin
  else if String.eqb s "QuadraticOperator" then Ok (CPoly Quadratic) else if String.eqb s "CubicOperator" then Ok (CPoly Cubic)
  else if String.eqb s "QuarticOperator" then Ok (CPoly Quartic) else if String.eqb s "InputOperator" then Ok CInp
  else if String.eqb s "StateInputOperator" then Ok CStIn else Err AttributeError.
(* the array an operator stores: one-dimensional for ConstantOperator *)
Definition op_dset (o : op) : dval := match o with OConst c => DV c | _ => DM (entries2 o) end.
(* Class(entries) for such an array.  (A one-dimensional array given to another class is outside the model.) *)
Definition op_make (c : cls) (d : dval) : res op :=
  match c, d with CConst, DV v => Ok (OConst v) | CConst, DM _ => Err OtherError | _, DM E => construct c E | _, _ => Err OtherError end.
Definition op_events (o : mop) : list wev :=                                                 (* _base.py:796-800 *)
  [empty "meta"; EAttr "meta" "class" (AvS (base_name (mo_cls o)))] ++ when (mo_ent o) (fun e => [EData "entries" (Some (op_dset e))]).
Definition check_class (s : str) (g : node) : res unit :=
  do a <- meta_attr "class" g; do s' <- as_str a; raise_if negb (String.eqb s s') with TypeError;; Ok tt.
Definition op_load (c : cls) (g : node) : res mop :=                                         (* _base.py:811-819 *)
  do _ <- check_class (base_name c) g;
  if has "entries" g then do d <- dset "entries" g; do e <- op_make c d; Ok {| mo_cls := c; mo_ent := Some e |}
  else Ok {| mo_cls := c; mo_ent := None |}.

(* affine operators: _affine.py:449-462, 480-504.  (Entries are dense here; save_sparray is in HdfModel.v.) *)
Definition aff_name (c : cls) : str := String.append "Affine" (base_name c).
Definition edsets {A} (name : nat -> str) (f : A -> option dval) : nat -> list A -> list wev :=
  fix go i l := match l with [] => [] | x :: t => EData (name i) (f x) :: go (S i) t end.
Definition ldsets {A} (name : nat -> str) (f : dval -> res A) (g : node) : nat -> nat -> res (list A) :=
  fix go i n := match n with 0 => Ok [] | S n' => do d <- dset (name i) g; do a <- f d; do r <- go (S i) n'; Ok (a :: r) end.
Definition aff_events (a : aff) : list wev :=
  [empty "meta"; EAttr "meta" "class" (AvS (aff_name (a_cls a)))]
  ++ when (a_pdim a) (fun p => [EAttr "meta" "parameter_dimension" (AvI (Z.of_nat p))])
  ++ [EAttr "meta" "nterms" (AvI (Z.of_nat (a_nterms a)))]
  ++ when (a_entries a) (fun ops => [EGroup "entries" (edsets (fun i => String.append "A" (dec i)) (fun o => Some (op_dset o)) 0 ops)]).
(* the array of one term, as a two-dimensional one *)
Definition as_term (d : dval) : res mat := match d with DV v => Ok (map (fun x => [x]) v) | DM m => Ok m | _ => Err OtherError end.
(* op.parameter_dimension = p: operators/_base.py:1265-1276 *)
Definition aff_set_pdim (p : nat) (a : aff) : res aff :=
  match a_pdim a with
  | Some _ => Err AttributeError
  | None => Ok {| a_cls := a_cls a; a_theta := a_theta a; a_nterms := a_nterms a; a_pdim := Some p; a_entries := a_entries a |}
  end.
Definition aff_load (c : cls) (coeffs : coeffarg) (g : node) : res aff :=
  do _ <- check_class (aff_name c) g;
  do v <- meta_attr "nterms" g; do n <- as_int v;
  do Es <- (if has "entries" g
            then do gr <- item "entries" g;
                 do l <- ldsets (fun i => String.append "A" (dec i)) as_term gr 0 (length (kids gr)); Ok (Some l)
            else Ok None);
  do a <- aff_init c coeffs (Some (Z.to_nat n));
  do a <- match Es with Some l => aff_set a l | None => Ok a end;
  do m <- item "meta" g;
  match assoc "parameter_dimension" (attrs_of m) with
  | None => Ok a
  | Some v => do p <- as_int v; aff_set_pdim (Z.to_nat p) a
  end.

(* interpolated operators: _interpolate.py:494-519, 543-582.  scipy.interpolate: the name of a class, and its attributes *)
Record spi := { si_name : iclass -> str; si_attr : str -> option iclass }.
Definition itp_name (c : cls) : str := String.append "Interp" (base_name c).
Definition class_attr (I : spi) (ic : option iclass) : str := match ic with None => "NoneType" | Some C => si_name I C end.
Definition params_dset (ps : list pval) : dval :=
  if forallb is_scalar ps then DV (map unscalar ps) else DM (map (fun p => match p with PV v => v | PS x => [x] end) ps).
Definition params_of (d : dval) : res (list pval) :=
  match d with DV v => Ok (map PS v) | DM m => Ok (map PV m) | _ => Err OtherError end.
Definition itp_events (I : spi) (t : itp) : list wev :=
  [empty "meta"; EAttr "meta" "class" (AvS (itp_name (i_cls t))); EAttr "meta" "InterpolatorClass" (AvS (class_attr I (i_iclass t)))]
  ++ when (i_params t) (fun ps => [EData "training_parameters" (Some (params_dset ps))])
  ++ when (i_entries t) (fun ops => [EData "entries" (Some (DT (map entries2 ops)))]).
(* the class to use: the argument, else the attribute of scipy.interpolate of the stored name *)
Definition find_class (I : spi) (arg : option iclass) (s : str) : res (option iclass) :=
  match arg with
  | Some C => Ok (Some C)
  | None => match si_attr I s with
            | Some C => Ok (Some C)
            | None => if String.eqb s "NoneType" then Ok None else Err ValueError
            end
  end.
Definition itp_load (X : pext) (I : spi) (c : cls) (arg : option iclass) (g : node) : res itp :=
  do _ <- check_class (itp_name c) g;
  do a <- meta_attr "InterpolatorClass" g; do s <- as_str a;
  do ic <- find_class I arg s;
  let t := i_new c ic in
  do t <- (if has "training_parameters" g
           then do d <- dset "training_parameters" g; do ps <- params_of d; i_set_params t ps else Ok t);
  if has "entries" g
  then do d <- dset "entries" g; do Es <- as_ten d;
       match i_set (px_cubic X) (px_linnd X) t Es with (t', Ok _) => Ok t' | (_, Err e) => Err e end
  else Ok t.

(* ---- solvers --------------------------------------------------------------------------------------------------------------- *)
(* _save_dict, _load_dict: lstsq/_base.py:274-288 *)
Definition opt_attr {A} (f : A -> aval) (x : option A) : aval := match x with None => AvS "NULL" | Some a => f a end.
Definition opts_events (o : lsopts) : list wev :=
  [empty "options"; EAttr "options" "cond" (opt_attr AvR (o_cond o)); EAttr "options" "lapack_driver" (opt_attr AvS (o_driver o))].
Definition is_null (a : aval) : bool := match a with AvS s => String.eqb s "NULL" | _ => false end.
Definition opts_load (g : node) : res lsopts :=
  do n <- item "options" g;
  do a <- attr "cond" n; do c <- (if is_null a then Ok None else match a with AvR x => Ok (Some x) | _ => Err OtherError end);
  do a <- attr "lapack_driver" n; do d <- (if is_null a then Ok None else do s <- as_str a; Ok (Some s));
  Ok {| o_cond := c; o_driver := d |}.
Definition data_events (d : option (mat * mat)) (extras : list wev) : list wev :=
  when d (fun dz => [EData "data_matrix" (Some (DM (fst dz))); EData "lhs_matrix" (Some (DM (snd dz)))] ++ extras).
(* D, Z stored in the file, after SolverTemplate.fit(D, Z) *)
Definition data_load (g : node) : res (option (mat * mat)) :=
  if has "data_matrix" g
  then do d <- dset "data_matrix" g; do D <- as_mat d; do d <- dset "lhs_matrix" g; do Z <- as_mat d;
       do dz <- base_fit (M D) (M Z); Ok (Some dz)
  else Ok None.
Definition mat_at (nm : str) (g : node) : res mat := do d <- dset nm g; as_mat d.
Definition vec_at (nm : str) (g : node) : res vec := do d <- dset nm g; as_vec d.
(* the extras of the solvers based on an SVD (TruncatedSVDSolver stores the rows of PsiT divided by the singular
   values; kept undivided here) *)
Definition svd_events (p : option svdpre) : list wev :=
  data_events (odata p) (when p (fun q => [EData "_svals" (Some (DV (sp_svals q))); EData "_ZPhi" (Some (DM (sp_ZPhi q))); EData "_PsiT" (Some (DM (sp_PsiT q)))])).
Definition svd_load (g : node) : res (option svdpre) :=
  do d <- data_load g;
  match d with
  | None => Ok None
  | Some (D, Z) => do s <- vec_at "_svals" g; do A <- mat_at "_ZPhi" g; do B <- mat_at "_PsiT" g;
                   Ok (Some {| sp_D := D; sp_Z := Z; sp_svals := s; sp_ZPhi := A; sp_PsiT := B |})
  end.
Definition pads_events (p : option pads) : list wev :=
  [EData "_ZtPad" (option_map (fun q => DM (pd_ZtPad q)) p); EData "_DtD" (option_map (fun q => DM (pd_DtD q)) p);
   EData "_DtZt" (option_map (fun q => DM (pd_DtZt q)) p)].
Definition pads_load (g : node) : res pads :=
  do A <- mat_at "_ZtPad" g; do B <- mat_at "_DtD" g; do C <- mat_at "_DtZt" g; Ok {| pd_ZtPad := A; pd_DtD := B; pd_DtZt := C |}.
Definition method_str (m : method) : str := match m with MLstsq => "lstsq" | MNormal => "normal" end.
Definition method_of (s : str) : res method := if String.eqb s "lstsq" then Ok MLstsq else if String.eqb s "normal" then Ok MNormal else Err ValueError.
Definition method_at (g : node) : res method := do a <- meta_attr "method" g; do s <- as_str a; method_of s.
Definition lsq_events (s : lsq) : list wev :=
  match s with
  | LPlain p => opts_events (pl_opts p) ++ data_events (pl_data p) []                        (* _base.py:439-443 *)
  | LL2 p => when (l2_reg p) (fun x => [EData "regularizer" (Some (DV [x]))]) ++ [empty "options"] ++ svd_events (l2_pre p)      (* _tikhonov.py:136-152, 441 *)
  | LL2D p => when (ld_reg p) (fun v => [EData "regularizer" (Some (DV v))]) ++ [empty "options"] ++ svd_events (ld_pre p)
  | LTik p => when (tk_reg p) (fun G => [EData "regularizer" (Some (DM G))])
              ++ [empty "meta"; EAttr "meta" "method" (AvS (method_str (tk_method p)))]
              ++ opts_events (tk_opts p) ++ data_events (tk_data p) (pads_events (tk_pre p))                                       (* _tikhonov.py:136-152, 1061 *)
  | LTikD p => (* matrices of different shapes do not form an array *)
              when (td_reg p) (fun Gs => if same_shapes Gs then [EData "regularizer" (Some (DT Gs))] else [ERaise ValueError])
              ++ [empty "meta"; EAttr "meta" "method" (AvS (method_str (td_method p)))]
              ++ [empty "options"] ++ data_events (td_data p) (pads_events (td_pre p))
  | LTsvd p => empty "options" :: EData "num_svdmodes" (option_map (fun z => DZ [z]) (ts_modes p)) :: svd_events (ts_pre p)      (* _tsvd.py:184-191 *)
  | LTls p => empty "options" ::                                                             (* _total.py:157-163 *)
              data_events (tl_data p)
                [EData "_Ohat" (option_map (fun w => DM (tl_Ohat w)) (tl_sol p));
                 EData "_augcond" (option_map (fun w => DF [match tl_cond w with Some x => Fin x | None => Infty false end]) (tl_sol p));
                 EData "_norm_of_errors" (option_map (fun w => DF [Fin (tl_err w)]) (tl_sol p))]
  end.
Inductive sclass := KPlain | KL2 | KL2D | KTik | KTikD | KTsvd | KTls.
Definition s_class (s : lsq) : sclass :=
  match s with LPlain _ => KPlain | LL2 _ => KL2 | LL2D _ => KL2D | LTik _ => KTik | LTikD _ => KTikD | LTsvd _ => KTsvd | LTls _ => KTls end.
Definition if_has {A} (nm : str) (g : node) (f : dval -> res A) : res (option A) :=
  if has nm g then do d <- dset nm g; do a <- f d; Ok (Some a) else Ok None.
(* an assignment that must return *)
Definition done {A} (x : A * res unit) : res A := match x with (a, Ok _) => Ok a | (_, Err e) => Err e end.
Definition as_fl (d : dval) : res fl := match d with DF l => head0 l | _ => Err OtherError end.
Definition lsq_load (k : sclass) (g : node) : res lsq :=
  match k with
  | KPlain => do o <- opts_load g; do d <- data_load g; Ok (LPlain {| pl_opts := o; pl_data := d |})       (* _base.py:461-471 *)
  | KL2 =>                                                                                  (* _tikhonov.py:171-199 *)
      do x <- if_has "regularizer" g (fun d => do v <- as_vec d; head0 v);
      do _ <- item "options" g;
      do s <- done (l2_set {| l2_reg := None; l2_pre := None |} (match x with Some x => RScalar x | None => RNone end));
      do p <- svd_load g; Ok (LL2 {| l2_reg := l2_reg s; l2_pre := p |})
  | KL2D =>
      do v <- if_has "regularizer" g as_vec;
      do _ <- item "options" g;
      do s <- done (ld_set {| ld_reg := None; ld_pre := None |} (match v with Some v => RVec v | None => RNone end));
      do p <- svd_load g; Ok (LL2D {| ld_reg := ld_reg s; ld_pre := p |})
  | KTik =>
      do G <- if_has "regularizer" g as_mat;
      do o <- opts_load g; do mt <- method_at g;
      do s <- done (tk_set {| tk_reg := None; tk_method := mt; tk_opts := o; tk_data := None; tk_pre := None |} (option_map M G));
      do d <- data_load g;
      match d with
      | None => Ok (LTik s)
      | Some dz => do p <- pads_load g;
                   Ok (LTik {| tk_reg := tk_reg s; tk_method := mt; tk_opts := o; tk_data := Some dz; tk_pre := Some p |})
      end
  | KTikD =>
      do Gs <- if_has "regularizer" g as_ten;
      do _ <- item "options" g; do mt <- method_at g;
      do s <- done (td_set {| td_reg := None; td_method := mt; td_data := None; td_pre := None |} (option_map (map M) Gs));
      do d <- data_load g;
      match d with
      | None => Ok (LTikD s)
      | Some dz => do p <- pads_load g; Ok (LTikD {| td_reg := td_reg s; td_method := mt; td_data := Some dz; td_pre := Some p |})
      end
  | KTsvd =>                                                                                (* _tsvd.py:208-218 *)
      do _ <- item "options" g;
      do d <- dset "num_svdmodes" g; do l <- as_ints d; do n <- head0 l;
      do p <- svd_load g; Ok (LTsvd {| ts_modes := Some n; ts_pre := p |})
  | KTls =>                                                                                 (* _total.py:180-191 *)
      do _ <- item "options" g;
      do d <- data_load g;
      match d with
      | None => Ok (LTls {| tl_data := None; tl_sol := None |})
      | Some dz =>
          do O <- mat_at "_Ohat" g;
          do a <- dset "_augcond" g; do c <- as_fl a; do a <- dset "_norm_of_errors" g; do e <- as_fl a;
          match e with
          | Fin x => Ok (LTls {| tl_data := Some dz; tl_sol := Some {| tl_Ohat := O; tl_err := x; tl_cond := match c with Fin y => Some y | _ => None end |} |})
          | _ => Err OtherError
          end
      end
  end.

(* ---- models ------------------------------------------------------------------------------------------------------------------ *)
Definition dim_of (x : option nat) : Z := match x with Some n => Z.of_nat n | None => 0%Z end.
Definition op_group (i : nat) : str := String.append "operator_" (dec i).
Definition indices_dset (l : list nat) : dval := DZ (map Z.of_nat l).
(* models/mono/_nonparametric.py:412-433 *)
Definition model_events (d : model) : list wev :=
  [empty "meta"; EAttr "meta" "num_operators" (AvI (Z.of_nat (length (m_ops d)))); EAttr "meta" "r" (AvI (dim_of (m_r d)));
   EAttr "meta" "m" (AvI (dim_of (m_m d))); EData "indices_infer" (Some (indices_dset (m_infer d)));
   EData "indices_known" (Some (indices_dset (m_known d)))]
  ++ egroups op_group op_events 0 (m_ops d)
  ++ when (m_solver d) (fun s => [EGroup "solver" (lsq_events s)]).
(* getattr(operators, class).load(group) *)
Definition op_load_any (g : node) : res mop := do a <- meta_attr "class" g; do s <- as_str a; do c <- op_class s; op_load c g.
Definition indices_at (nm : str) (g : node) : res (list nat) := do d <- dset nm g; do l <- as_ints d; Ok (map Z.to_nat l).
Definition with_indices (inf known : list nat) (d : model) : model :=
  {| m_kind := m_kind d; m_frozen := m_frozen d; m_ops := m_ops d; m_infer := inf; m_known := known; m_hasin := m_hasin d;
     m_r := m_r d; m_m := m_m d; m_intrusive := m_intrusive d; m_solver := m_solver d |}.
(* models/mono/_nonparametric.py:450-472; k and frozen say which class's load() is called *)
Definition model_load (k : kind) (frozen : bool) (g : node) : res model :=
  do a <- meta_attr "num_operators" g; do n <- as_int a;
  do inf <- indices_at "indices_infer" g; do known <- indices_at "indices_known" g;
  do ops <- lgroups op_group g 0 (repeat op_load_any (Z.to_nat n));
  do d <- mk_model k frozen (map AOp ops) SNone;
  let d := with_indices inf known d in
  do a <- meta_attr "r" g; do r <- as_int a;
  do d <- (if (r =? 0)%Z then Ok d else done (set_state_dimension (Z.to_nat r) d));
  do a <- meta_attr "m" g; do m <- as_int a;
  if ((m =? 0)%Z || negb (m_hasin d))%bool then Ok d else done (set_input_dimension (Z.to_nat m) d).

(* the interpolatory models: models/mono/_parametric.py:1198-1239, 1264-1309.  [ic] is the model's own InterpolatorClass *)
Definition imodel_events (I : spi) (ic : option iclass) (d : imodel) : list wev :=
  [empty "meta"; EAttr "meta" "num_operators" (AvI (Z.of_nat (length (pm_ops (im_base d))))); EAttr "meta" "r" (AvI (dim_of (pm_r (im_base d))));
   EAttr "meta" "m" (AvI (dim_of (pm_m (im_base d)))); EAttr "meta" "InterpolatorClass" (AvS (class_attr I ic));
   EData "indices_infer" (Some (indices_dset (pm_infer (im_base d)))); EData "indices_known" (Some (indices_dset (pm_known (im_base d))))]
  ++ egroups op_group (fun o => match o with PItp t => itp_events I t | PAff a => aff_events a | PMono o => op_events o end) 0 (pm_ops (im_base d)).
(* (there is no interpolated QuarticOperator; it is not excluded here) *)
Definition itp_class (s : str) : res cls :=
  match find (fun c => String.eqb s (itp_name c)) [CConst; CLin; CPoly Quadratic; CPoly Cubic; CPoly Quartic; CInp; CStIn] with
  | Some c => Ok c
  | None => Err AttributeError
  end.
Definition itp_load_any (X : pext) (I : spi) (arg : option iclass) (g : node) : res pop :=
  do a <- meta_attr "class" g; do s <- as_str a; do c <- itp_class s; do t <- itp_load X I c arg g; Ok (PItp t).
Definition pw_indices (inf known : list nat) (d : pmodel) : pmodel :=
  {| pm_kind := pm_kind d; pm_ops := pm_ops d; pm_infer := inf; pm_known := known; pm_hasin := pm_hasin d; pm_r := pm_r d; pm_m := pm_m d;
     pm_p := pm_p d; pm_s := pm_s d; pm_intrusive := pm_intrusive d; pm_solver := pm_solver d |}.
Definition imodel_load (X : pext) (I : spi) (k : kind) (arg : option iclass) (g : node) : res imodel :=
  do a <- meta_attr "num_operators" g; do n <- as_int a;
  do inf <- indices_at "indices_infer" g; do known <- indices_at "indices_known" g;
  do a <- meta_attr "InterpolatorClass" g; do s <- as_str a; do ic <- find_class I arg s;
  do ops <- lgroups op_group g 0 (repeat (itp_load_any X I ic) (Z.to_nat n));
  do d <- imk_model k (map POp ops) SNone;
  let b := pw_indices inf known (im_base d) in
  do a <- meta_attr "r" g; do r <- as_int a;
  do b <- (if (r =? 0)%Z then Ok b else done (pset_r (Z.to_nat r) b));
  do a <- meta_attr "m" g; do m <- as_int a;
  do b <- (if ((m =? 0)%Z || negb (pm_hasin b))%bool then Ok b else done (pset_m (Z.to_nat m) b));
  Ok {| im_base := b; im_sub := im_sub d; im_params := im_params d |}.

(* ---- OperatorPosterior: roms/_bayes.py:76-193 ------------------------------------------------------------------------------------ *)
(* the rows' means and covariances; po_prec: built from precision matrices *)
Record post := { po_means : list vec; po_covs : list mat; po_prec : bool }.
(* scipy.stats: covariance of a precision matrix; acceptance of a covariance matrix *)
Record mvn := { x_cov : mat -> res mat; x_psd : mat -> res unit }.
Definition square_of (v : vec) (C : mat) : bool := shape_is (length v) (length v) C.
Definition post_init (X : mvn) (means : list vec) (mats : list mat) (inverted : bool) : res post :=
  raise_if negb (length means =? length mats) with ValueError;;
  do covs <- mapM (fun mc => let '(v, C) := mc in
                     raise_if negb (square_of v C) with ValueError;;
                     if inverted then do _ <- x_psd X C; Ok C else x_cov X C) (combine means mats);
  raise_if (length means =? 0) with IndexError;;
  Ok {| po_means := means; po_covs := covs; po_prec := negb inverted |}.
Definition post_events (p : post) : list wev :=                                              (* 173-177 *)
  EData "state_dimension" (Some (DZ [Z.of_nat (length (po_means p))])) ::
  (fix go (i : nat) (l : list (vec * mat)) : list wev :=
     match l with
     | [] => []
     | (v, C) :: t => EData (String.append "means_" (dec i)) (Some (DV v)) :: EData (String.append "covs_" (dec i)) (Some (DM C)) :: go (S i) t
     end) 0 (combine (po_means p) (po_covs p)).
Definition post_load (X : mvn) (g : node) : res post :=                                      (* 188-193 *)
  do d <- dset "state_dimension" g; do l <- as_ints d; do r <- head0 l;
  do means <- ldsets (fun i => String.append "means_" (dec i)) as_vec g 0 (Z.to_nat r);
  do covs <- ldsets (fun i => String.append "covs_" (dec i)) as_mat g 0 (Z.to_nat r);
  post_init X means covs true.
(* __eq__: 138-147 *)
Definition post_eqb (p q : post) : bool :=
  (length (po_means p) =? length (po_means q))
  && forallb (fun x => veqb (fst x) (snd x)) (combine (po_means p) (po_means q))
  && forallb (fun x => meqb (fst x) (snd x)) (combine (po_covs p) (po_covs q)).

(* ---- every class with a save() method ----------------------------------------------------------------------------------------------- *)
Inductive saveable :=
| SvTf (t : tf) | SvBasis (b : basis) | SvMulti (bs : list basis) | SvOp (o : mop) | SvAff (a : aff) | SvItp (t : itp)
| SvSolver (s : lsq) | SvModel (d : model) | SvInterp (ic : option iclass) (d : imodel) | SvPost (p : post).
Definition events_of (I : spi) (x : saveable) : list wev :=
  match x with
  | SvTf t => tf_events t | SvBasis b => b_events b | SvMulti bs => bmulti_events bs | SvOp o => op_events o | SvAff a => aff_events a
  | SvItp t => itp_events I t | SvSolver s => lsq_events s | SvModel d => model_events d | SvInterp ic d => imodel_events I ic d
  | SvPost p => post_events p
  end.
(* the default of the argument overwrite: False, but True in roms/_bayes.py:163 *)
Definition default_overwrite (x : saveable) : bool := match x with SvPost _ => true | _ => false end.
(* x.save(path) or x.save(path, overwrite) *)
Definition save (I : spi) (w : world) (f : fs) (path : str) (overwrite : option bool) (x : saveable) : fs * wstat :=
  save_file w f path (match overwrite with Some b => b | None => default_overwrite x end) (events_of I x).

(* SpecParam.v -- vocabulary for the statements about parametric operators. *)
From Verif Require Export ParamModel.
#[local] Open Scope nat_scope.

(* the class of an operator *)
Definition cls_of (o : op) : cls :=
  match o with OConst _ => CConst | OLin _ => CLin | OPoly d _ => CPoly d | OInp _ => CInp | OStIn _ => CStIn end.

(* the operators ops all have class c, r rows and m inputs *)
Definition family (r m : nat) (c : cls) (ops : list op) : Prop := Forall (fun o => wf_op r m o /\ cls_of o = c) ops.

(* the trained affine object: n terms, all of class c and size (r, m) *)
Definition affine_of (r m : nat) (a : aff) (ops : list op) : Prop :=
  a_entries a = Some ops /\ family r m (a_cls a) ops /\ length ops = a_nterms a /\ 0 < a_nterms a.

(* the shapes of the data: as many state and input blocks as parameters *)
Definition datashape (r m : nat) (ks : list nat) (Qs Us : list mat) : Prop :=
  Forall2 (fun k Q => is_mat r k Q) ks Qs /\ Forall2 (fun k U => is_mat m k U) ks Us.

(* mu has the right dimension and the coefficient functions give one number per term *)
Definition good_param (a : aff) (mu : pval) : Prop :=
  match a_pdim a with Some p => plen mu = p | None => True end /\ exists th, thetas a mu = Ok th /\ length th = a_nterms a.

(* A minimises |A D - Z| over all r x d matrices *)
Definition lsq_minimizer (r d : nat) (D Z A : mat) : Prop :=
  is_mat r d A /\ forall B, is_mat r d B -> (mnorm2 (msub (matmul A D) Z) <= mnorm2 (msub (matmul B D) Z))%R.

(* SpecGen.v -- vocabulary for the statements about models made of operators of any class. *)
From Coq Require Import ZArith.
From Verif Require Export SpecOps SpecMono GenModel.
#[local] Open Scope nat_scope.

(* ---- what a class of operators has to be: the operator is E phi(q, u) with E an r x w matrix of entries ------------------ *)
Definition feature : Type := nat * (vec -> vec -> vec).       (* w and phi *)
(* (E phi(q, u))_i *)
Definition term (f : feature) (E : mat) (q u : vec) (i : nat) : R := bsum (fst f) (fun b => (mget E i b * vget (snd f q u) b)%R).
Record lawful (r m : nat) (c : ocls) (f : feature) : Prop := {
  lw_pos : 0 < fst f;
  (* operator_dimension *)
  lw_dim : forall mm, (oc_inputs c = true -> mm = Some m) -> oc_dim c r mm = Ok (fst f);
  (* column j of the data block is phi(q_j, u_j); classes without inputs ignore whatever is passed as inputs *)
  lw_block : forall k Q U oU, 0 < k -> is_mat r k Q -> is_mat m k U -> (oc_inputs c = true -> oU = Some (M U)) ->
    exists B, oc_block c Q oU = Ok B /\ is_mat (fst f) k B /\
      forall j b, j < k -> b < fst f -> mget B b j = vget (snd f (colv r Q j) (colv m U j)) b;
  (* set_entries stores the matrix it is given *)
  lw_set : forall E, is_mat r (fst f) E -> oc_set c E = Ok E;
  lw_indim : forall E, oc_inputs c = true -> is_mat r (fst f) E -> oc_indim c E = m;
  (* apply, for a single state and for snapshots *)
  lw_vec : forall E q u ou, is_mat r (fst f) E -> is_vec r q -> is_vec m u -> (oc_inputs c = true -> ou = Some (V u)) ->
    exists y, oc_apply c E (V q) ou = Ok (V y) /\ is_vec r y /\ forall i, i < r -> vget y i = term f E q u i;
  lw_mat : forall k E Q U oU, 0 < k -> is_mat r (fst f) E -> is_mat r k Q -> is_mat m k U -> (oc_inputs c = true -> oU = Some (M U)) ->
    exists Y, oc_apply c E (M Q) oU = Ok (M Y) /\ is_mat r k Y /\
      forall i j, i < r -> j < k -> mget Y i j = term f E (colv r Q j) (colv m U j) i }.

(* the features of the classes of the library, and of PolynomialOperator of order p: all monomials of degree p *)
Definition lib_feature (r m : nat) (c : cls) : feature :=
  match c with
  | CConst => (1, fun _ _ => [1%R])
  | CLin => (r, fun q _ => q)
  | CPoly d => (length (monomials (deg d) r), fun q _ => map (mono q) (monomials (deg d) r))
  | CInp => (m, fun _ u => u)
  | CStIn => (r * m, fun q u => flat_map (fun x => map (Rmult x) q) u)
  end.
Definition poly_feature (r p : nat) : feature := (length (monomials p r), fun q _ => map (mono q) (monomials p r)).
(* the dedicated class of order p *)
Definition dedicated (p : nat) : option cls :=
  match p with
  | 0 => Some CConst | 1 => Some CLin | 2 => Some (CPoly Quadratic) | 3 => Some (CPoly Cubic) | 4 => Some (CPoly Quartic)
  | _ => None
  end.

(* ---- the model ------------------------------------------------------------------------------------------------------------ *)
(* the operators given to the constructor (class, entries if known), their classes behaving as f says *)
Definition garg : Type := ocls * option mat.
Definition described (r m : nat) (a : garg) (f : feature) : Prop :=
  lawful r m (fst a) f /\ forall E, snd a = Some E -> is_mat r (fst f) E.
(* the same operator as an object of the dedicated class and as a PolynomialOperator *)
Definition exchanged (r m : nat) (a b : garg) : Prop :=
  (a = b /\ exists f, described r m a f) \/
  (exists p c e, dedicated p = Some c /\ (forall E, e = Some E -> is_mat r (length (monomials p r)) E) /\
     a = (lib_cls c, e) /\ b = (poly_cls p, e)).
Definition any_inputs (args : list garg) : Prop := exists a, In a args /\ oc_inputs (fst a) = true.
(* training data: r states, k snapshots, m inputs if any operator takes inputs *)
Record data (r m k : nat) (args : list garg) (states lhs : arr) (inputs : option arr) (Q Z U : mat) : Prop := {
  dt_k : 0 < k;
  dt_Q : atleast_2d states = Q /\ is_mat r k Q;
  dt_Z : atleast_2d lhs = Z /\ is_mat r k Z;
  dt_U : is_mat m k U;
  dt_in : any_inputs args -> exists u, inputs = Some u /\ atleast_2d u = U }.
(* one matrix for every operator; those given at construction stay *)
Fixpoint valued (r : nat) (args : list garg) (fs : list feature) (Es : list mat) : Prop :=
  match args, fs, Es with
  | [], [], [] => True
  | a :: args', f :: fs', E :: Es' => is_mat r (fst f) E /\ (forall E0, snd a = Some E0 -> E = E0) /\ valued r args' fs' Es'
  | _, _, _ => False
  end.
(* f_Es(q, u)_i = sum_l (E_l phi_l(q, u))_i *)
Fixpoint value (fs : list feature) (Es : list mat) (q u : vec) (i : nat) : R :=
  match fs, Es with
  | f :: fs', E :: Es' => (term f E q u i + value fs' Es' q u i)%R
  | _, _ => 0%R
  end.
(* sum_j (f_Es(q_j, u_j)_i - z_ij)^2 *)
Definition misfit_of (r m k : nat) (fs : list feature) (Es : list mat) (Q Z U : mat) (i : nat) : R :=
  bsum k (fun j => Rsqr (value fs Es (colv r Q j) (colv m U j) i - mget Z i j)).
(* the matrices, and the number of columns, of the operators that are learned *)
Fixpoint learned (args : list garg) (Es : list mat) : list mat :=
  match args, Es with
  | (_, None) :: args', E :: Es' => E :: learned args' Es'
  | (_, Some _) :: args', _ :: Es' => learned args' Es'
  | _, _ => []
  end.
Fixpoint unknowns (args : list garg) (fs : list feature) : nat :=
  match args, fs with
  | (_, None) :: args', f :: fs' => fst f + unknowns args' fs'
  | (_, Some _) :: args', _ :: fs' => unknowns args' fs'
  | _, _ => 0
  end.
Definition some_unknown (args : list garg) : Prop := exists c, In (c, None) args.

(* histories of successful calls *)
Inductive greach (X : lsx) (r m : nat) (args : list garg) : gmodel -> Prop :=
| gr_new s d : (forall s0, s = Some s0 -> fresh_solver (x_lsvd X) s0) -> gmk args s = Ok d -> greach X r m args d
| gr_fit d k states lhs inputs Q Z U d' : greach X r m args d -> data r m k args states lhs inputs Q Z U ->
    gfit X d states lhs inputs = Ok d' -> greach X r m args d'
| gr_reg d g d' : greach X r m args d -> valid_reg g -> gset_regularizer g d = Ok d' -> greach X r m args d'
| gr_refit d d' : greach X r m args d -> grefit X d = Ok d' -> greach X r m args d'.
(* after fit() with these data, and any number of times a new regularizer and refit() *)
Inductive gsession (X : lsx) (r m : nat) (args : list garg) (states lhs : arr) (inputs : option arr) : gmodel -> Prop :=
| gs_fit d d' : greach X r m args d -> gfit X d states lhs inputs = Ok d' -> gsession X r m args states lhs inputs d'
| gs_refit d g d1 d' : gsession X r m args states lhs inputs d -> valid_reg g -> gset_regularizer g d = Ok d1 -> grefit X d1 = Ok d' ->
    gsession X r m args states lhs inputs d'.
(* what fit() and refit() leave behind: every operator has a matrix Es_l of its size; operator_matrix is the learned ones side
   by side; rhs() is their sum; and no other matrices have a smaller misfit plus penalty (that of the solver's regularizer),
   in any row *)
Definition learns (X : lsx) (r m k : nat) (args : list garg) (fs : list feature) (Q Z U : mat) (d' : gmodel) : Prop :=
  exists Es, valued r args fs Es /\ map go_ent (gm_ops d') = map Some Es /\ goperator_matrix d' = Ok (hstack (learned args Es)) /\
    is_mat r (unknowns args fs) (hstack (learned args Es)) /\
    (forall q u ou, is_vec r q -> is_vec m u -> (any_inputs args -> ou = Some (V u)) ->
       exists y, grhs d' (V q) ou = Ok (V y) /\ is_vec r y /\ forall i, i < r -> vget y i = value fs Es q u i) /\
    exists s, gm_solver d' = Some s /\ forall pen, penalty s (unknowns args fs) = Some pen -> forall Es' i, valued r args fs Es' -> i < r ->
      (misfit_of r m k fs Es Q Z U i + pen (hstack (learned args Es)) i <= misfit_of r m k fs Es' Q Z U i + pen (hstack (learned args Es')) i)%R.

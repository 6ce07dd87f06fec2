(* Prop_Named.v -- property C71 (the attributes c_, A_, H_, G_, B_, N_ of a model, and str(model)). *)
From Coq Require Import String Ascii ZArith Reals Lra Lia List.
From Verif Require Import LinAlg MatAlg MonoFinal MonoEx ParaBest ParaEx NamedProofs NamedStr NamedDegree.
From Verif Require Import SpecNamed.
#[local] Open Scope nat_scope.
#[local] Open Scope list_scope.

(* C71: c_, A_, H_, G_, B_ and N_ are the first operator of the class in question, and None exactly if there is none. *)
Theorem C71_first :
  forall c d,
  match of_type c d with
  | Some o => exists i, first_at c (m_ops d) i o
  | None => forall o, In o (m_ops d) -> mo_cls o <> c end.
Proof. exact named_first. Qed.
Print Assumptions C71_first.

(* C71: fit() keeps the position of a named operator; afterwards it has entries, and it is the same as before if it was known. *)
Theorem C71_after_fit :
  forall X d states lhs inputs d' s c,
  lsx_ok X -> reach X d -> m_intrusive d = false -> good_arr states -> good_arr lhs -> valid_in inputs ->
  fit X d states lhs inputs = (d', Ok tt) -> m_solver d = Some s ->
  match of_type c d, of_type c d' with
  | Some o, Some o' => exists i, first_at c (m_ops d) i o /\ first_at c (m_ops d') i o' /\ mo_ent o' <> None /\ (In i (m_known d) -> o' = o)
  | None, None => True
  | _, _ => False
  end.
Proof. exact named_fit. Qed.
Print Assumptions C71_after_fit.

(* C71: if no class occurs twice and there is no quartic operator, rhs() is the sum of what the six named operators contribute. *)
Theorem C71_rhs_is_named_sum :
  forall X d r q u,
  trained X d r -> is_vec r q -> input_for d u -> NoDup (map mo_cls (m_ops d)) -> (forall o, In o (m_ops d) -> mo_cls o <> CPoly Quartic) ->
  exists ys y, Forall2 (contributes r q u) [c_ d; A_ d; H_ d; G_ d; B_ d; N_ d] ys /\
    rhs d (V q) (option_map V u) = Ok (V y) /\ is_vec r y /\ forall i, i < r -> vget y i = lsum (map (fun yo => vget yo i) ys).
Proof. exact named_sum. Qed.
Print Assumptions C71_rhs_is_named_sum.

(* C71: a model is made from letters exactly if there is at least one, none twice, and each is one of c, A, H, G, B, N. *)
Theorem C71_letters_accepted :
  forall k ls,
  (exists d, mk_model k false (map AStr ls) SNone = Ok d) <-> ls <> [] /\ NoDup ls /\ forall l, In l ls -> exists c, In (l, c) letters.
Proof. exact letters_model. Qed.
Print Assumptions C71_letters_accepted.

(* C71: the model made from letters has operators of the classes the letters stand for, in that order, all to be learned; the attribute named like a letter is its operator, the other attributes are None. *)
Theorem C71_letters :
  forall k ls s d,
  mk_model k false (map AStr ls) s = Ok d ->
  (exists cs, Forall2 (fun l c => In (l, c) letters) ls cs /\ m_ops d = map (fun c => {| mo_cls := c; mo_ent := None |}) cs) /\
  m_infer d = seq 0 (length ls) /\ m_known d = [] /\
  forall l c, In (l, c) letters -> (In l ls -> of_type c d = Some {| mo_cls := c; mo_ent := None |}) /\ (~ In l ls -> of_type c d = None).
Proof. exact letters_named. Qed.
Print Assumptions C71_letters.

(* C71: the named operators of the model that a parametric model evaluates to are the evaluated named operators of the parametric model. *)
Theorem C71_evaluate :
  forall d mu e c,
  snd (pevaluate d mu) = Ok e -> match pof_type c d, of_type c e with
  | Some o, Some o' => snd (pop_eval o mu) = Ok o'
  | None, None => True
  | _, _ => False
  end.
Proof. exact named_evaluate. Qed.
Print Assumptions C71_evaluate.

(* C71: the structure line of str(model) tells the classes of the operators and their order. *)
Theorem C71_structure :
  forall X1 X2 d1 d2,
  lsx_ok X1 -> lsx_ok X2 -> reach X1 d1 -> reach X2 d2 -> m_kind d1 = m_kind d2 ->
  (structure d1 = structure d2 <-> map mo_cls (m_ops d1) = map mo_cls (m_ops d2)).
Proof. exact structure_shows. Qed.
Print Assumptions C71_structure.

(* C71: two models print the same exactly if they agree in class, state and input dimension, classes and shapes of all operators, and what their solvers print. *)
Theorem C71_str :
  forall X1 X2 sl d1 d2,
  lsx_ok X1 -> lsx_ok X2 -> reach X1 d1 -> reach X2 d2 -> (model_str sl d1 = model_str sl d2 <-> look_alike sl d1 d2).
Proof. exact str_tells. Qed.
Print Assumptions C71_str.

(* C71: the equation that str(model) shows has q once on the left and, on the right, q and u as often as the operators have degree in the state and in the input. *)
Theorem C71_structure_degrees :
  forall d,
  m_kind d <> KSteady ->
  occurrences "q"%char (structure d) = 1 + fold_right Nat.add 0 (map (fun o => state_degree (mo_cls o)) (m_ops d)) /\
  occurrences "u"%char (structure d) = fold_right Nat.add 0 (map (fun o => input_degree (mo_cls o)) (m_ops d)).
Proof. exact structure_degrees. Qed.
Print Assumptions C71_structure_degrees.

(* C71: it is false that the linear operator fit() learned is A_: a known linear operator given before it hides it. *)
Theorem C71_learned_refuted :
  exists X d states lhs inputs d' i o', lsx_ok X /\ reach X d /\ fit X d states lhs inputs = (d', Ok tt) /\
  In i (m_infer d) /\ nth_error (m_ops d') i = Some o' /\ mo_cls o' = CLin /\ A_ d' <> Some o'.
Proof. exact learned_hidden. Qed.
Print Assumptions C71_learned_refuted.


(* ---- examples ---- *)
(* a fit of a known linear and a constant operator: c_ is the learned one, A_ the known one *)
Example C71_fit_example : c_ dK = Some (unk CConst) /\ c_ dK1 = Some (knw (OConst [2]%R)) /\ A_ dK1 = Some (knw (OLin [[3]]%R)) /\ H_ dK1 = None /\
  lsx_ok X0 /\ reach X0 dK /\ m_intrusive dK = false /\ fit X0 dK (V [1]%R) (V [5]%R) None = (dK1, Ok tt) /\ m_solver dK = Some new_plain.
Proof. repeat (split; [reflexivity|]). split; [exact X0_ok|]. split; [exact dK_reach|]. split; [reflexivity|]. split; [exact dK1_fit|reflexivity]. Qed.
Example C71_sum_example : trained X0 dK1 1 /\ NoDup (map mo_cls (m_ops dK1)) /\ (forall o, In o (m_ops dK1) -> mo_cls o <> CPoly Quartic) /\
  rhs dK1 (V [7]%R) None = Ok (V [3 * 7 + 2]%R).
Proof. split; [|split; [|split]].
  - split; [exact X0_ok|]. split; [exact dK1_reach|]. split; [exact dK1_trained|reflexivity].
  - cbn. constructor; [intros [K|[]]; discriminate|]. constructor; [intros []|constructor].
  - intros o [<-|[<-|[]]]; discriminate.
  - cbn. do 3 f_equal; ring. Qed.
(* two letters; a letter twice; no letter *)
Example C71_letters_example : (exists d, mk_model KContinuous false (map AStr ["c"; "A"]%string) SNone = Ok d /\ c_ d = Some (unk CConst) /\ A_ d = Some (unk CLin) /\ B_ d = None) /\
  mk_model KContinuous false (map AStr ["A"; "A"]%string) SNone = Err ValueError /\ mk_model KContinuous false (map AStr ["Z"]%string) SNone = Err TypeError.
Proof. split; [eexists; repeat split; reflexivity|]. split; reflexivity. Qed.
Example C71_structure_example : structure dK1 = "q_{j+1} = Aq_{j} + c"%string /\ reach X0 dK1 /\ op_str (knw (OLin [[3]]%R)) = ("LinearOperator" ++ nl ++ "  state_dimension: 1" ++ nl ++ "  entries.shape:   (1, 1)")%string.
Proof. split; [reflexivity|]. split; [exact dK1_reach|reflexivity]. Qed.
(* training shows *)
Example C71_str_example : forall sl, model_str sl dK <> model_str sl dK1.
Proof. intros sl E. apply (str_tells X0 X0 sl dK dK1 X0_ok X0_ok dK_reach dK1_reach) in E. destruct E as (_ & _ & _ & _ & _ & E & _). discriminate E. Qed.
(* an affine linear operator *)
Example C71_evaluate_example : exists e, snd (pevaluate pm1 (PV [2; 1]%R)) = Ok e /\ pof_type CLin pm1 <> None /\ A_ e = Some (knw (OLin [[2 * 3 + 1 * 5]]%R)).
Proof. destruct pm1_eval as (e & E & H). exists e. split; auto. split; [discriminate|]. unfold A_, of_type. rewrite H. reflexivity. Qed.
Example C71_degrees_example : exists d, mk_model KContinuous false (map AStr ["A"; "H"; "N"]%string) SNone = Ok d /\ m_kind d <> KSteady /\
  structure d = "dq / dt = Aq(t) + H[q(t) ⊗ q(t)] + N[u(t) ⊗ q(t)]"%string /\ occurrences "q"%char (structure d) = 5 /\ occurrences "u"%char (structure d) = 1.
Proof. eexists. repeat split; try reflexivity. discriminate. Qed.

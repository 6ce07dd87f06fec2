(* SpecItp.v -- vocabulary for the statements about interpolated operators. *)
From Verif Require Export ItpModel SpecParam SpecExt.
#[local] Open Scope nat_scope.

(* training parameters of dimension p: numbers when p = 1 *)
Definition points (p : nat) (ps : list pval) : Prop := ps <> [] /\ Forall (fun x => plen x = p /\ (p = 1 -> is_scalar x = true)) ps.
(* the parameter as the interpolator is given it: an array with one element counts as a number *)
Definition as_point (p : nat) (mu : pval) : pval := if p =? 1 then PS (unscalar mu) else mu.

(* t interpolates the operators ops at the parameters ps with the class C *)
Definition interpolated (n m : nat) (t : itp) (ps : list pval) (p : nat) (C : iclass) (ops : list op) : Prop :=
  i_entries t = Some ops /\ family n m (i_cls t) ops /\ length ops = length ps /\ i_params t = Some ps /\ points p ps /\
  i_pdim t = Some p /\ i_iclass t = Some C /\ exists f, i_interp t = Some f /\ C ps (map entries2 ops) = Ok f.

(* at x, the class C combines the arrays given at the points ps with weights that do not depend on the arrays *)
Definition linear_at (C : iclass) (ps : list pval) (x : pval) (w : vec) : Prop :=
  length w = length ps /\
  forall a b Es, length Es = length ps -> Forall (is_mat a b) Es -> exists f E, C ps Es = Ok f /\ f x = Ok E /\ is_mat a b E /\
    forall i j, i < a -> j < b -> mget E i j = bsum (length ps) (fun k => (vget w k * mget (nth k Es []) i j)%R).

(* the parametric operator o can be evaluated at mu, and depends linearly on its operator matrices there *)
Definition ready (n m : nat) (mu : pval) (o : pop) : Prop :=
  match o with
  | PMono o => exists e, mo_ent o = Some e /\ cls_of e = mo_cls o /\ wf_op n m e
  | PAff a => exists ops, affine_of n m a ops /\ good_param a mu
  | PItp t => exists ps p C ops w, interpolated n m t ps p C ops /\ plen mu = p /\ linear_at C ps (as_point p mu) w
  end.

(* the models ds are trained and have operators of the classes cs, in this order, all of one size *)
Definition aligned (r m : nat) (cs : list cls) (ds : list model) : Prop :=
  Forall (fun d => map mo_cls (m_ops d) = cs /\ check_trained d = Ok tt /\
                   Forall (fun o => exists e, mo_ent o = Some e /\ cls_of e = mo_cls o /\ wf_op r m e) (m_ops d)) ds.

(* an operator object with entries *)
Definition as_mop (c : cls) (o : op) : mop := {| mo_cls := c; mo_ent := Some o |}.

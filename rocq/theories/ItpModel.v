(* ItpModel.v -- galerkin() of interpolated operators and of parametric models, and the private constructors
   _from_operators() and _from_models() which interpolate existing operators and models:
   operators/_interpolate.py, models/mono/_base.py, models/mono/_parametric.py.  No proofs here. *)
From Verif Require Export ParaModel.
#[local] Open Scope nat_scope.
#[local] Open Scope list_scope.

(* nonparametric_to_interpolated: operators/_interpolate.py:894-911.  The six interpolated classes are named by the class
   of their entries; there is none for QuarticOperator. *)
Definition interpolated_class (c : cls) : res cls := match c with CPoly Quartic => Err TypeError | _ => Ok c end.

(* the checks of _from_operators: operators/_interpolate.py:124-134, operator by operator *)
Fixpoint check_operators (c : cls) (l : list mop) : res (list mat) :=
  match l with
  | [] => Ok []
  | o :: t => if negb (cls_eqb (mo_cls o) c) then Err TypeError
              else match mo_ent o with
                   | None => Err ValueError
                   | Some e => do es <- check_operators c t; Ok (entries2 e :: es)
                   end
  end.
(* _from_operators: operators/_interpolate.py:109-142 *)
Definition i_from_operators (X : pext) (c : cls) (ps : list pval) (l : list mop) (ic : option iclass) : res itp :=
  do Es <- check_operators c l; i_init (px_cubic X) (px_linnd X) c ps Es ic.

Section Galerkin.
  (* scipy.linalg.solve and the numbers in the uninitialised columns: see GalModel.v *)
  Variables (X : pext) (solve : mat -> mat -> res mat) (junk : nat -> vec).

  (* galerkin: operators/_interpolate.py:357-416; entries without training parameters raise in set_entries *)
  Definition i_galerkin (t : itp) (Vr : mat) (Wr : option mat) : res itp :=
    match i_entries t with
    | None => Err AttributeError                                               (* @requires("entries") *)
    | Some ops =>
        do gs <- mapM (fun A => do o <- construct (i_cls t) A; galerkin solve junk o Vr Wr) (map entries2 ops);
        match i_params t with
        | None => Err AttributeError
        | Some ps => i_init (px_cubic X) (px_linnd X) (i_cls t) ps (map entries2 gs) (i_iclass t)
        end
    end.

  (* copy: operators/_affine.py:418-433 *)
  Definition aff_copy (a : aff) : res aff :=
    let a0 := {| a_cls := a_cls a; a_theta := a_theta a; a_nterms := a_nterms a; a_pdim := a_pdim a; a_entries := None |} in
    match a_entries a with None => Ok a0 | Some ops => aff_set a0 (map entries2 ops) end.

  (* one operator of models/mono/_base.py:283-292 *)
  Definition pop_galerkin (o : pop) (Vr : mat) (Wr : option mat) : res pop :=
    match o with
    | PMono o => match mo_ent o with
                 | None => Ok (PMono o)
                 | Some e => do g <- galerkin solve junk e Vr Wr; Ok (PMono {| mo_cls := mo_cls o; mo_ent := Some g |})
                 end
    | PAff a => do b <- (if puncal o then aff_copy a else aff_galerkin solve junk a Vr Wr); Ok (PAff b)
    | PItp t => do s <- (if puncal o then i_copy (px_cubic X) (px_linnd X) t else i_galerkin t Vr Wr); Ok (PItp s)
    end.
  (* galerkin() of a parametric model: models/mono/_base.py:283-292 *)
  Definition pgalerkin (d : pmodel) (Vr : mat) (Wr : option mat) : res pmodel :=
    do l <- mapM (fun o => pop_galerkin o Vr Wr) (pm_ops d); pmk_model (pm_kind d) (map POp l) SNone.
  (* ... and of a model of interpolated operators *)
  Definition igalerkin (d : imodel) (Vr : mat) (Wr : option mat) : res imodel :=
    do l <- mapM (fun o => pop_galerkin o Vr Wr) (pm_ops (im_base d)); imk_model (pm_kind (im_base d)) (map POp l) SNone.
End Galerkin.

(* the checks of _from_models: models/mono/_parametric.py:1052-1067, model by model *)
Fixpoint same_classes (l : list mop) (cs : list cls) : bool :=
  match l, cs with
  | o :: t, c :: cs' => cls_eqb (mo_cls o) c && same_classes t cs'
  | [], [] => true
  | _, _ => false
  end.
Fixpoint check_models (cs : list cls) (l : list model) : res unit :=
  match l with
  | [] => Ok tt
  | d :: t => if negb (length (m_ops d) =? length cs) then Err ValueError
              else if negb (same_classes (m_ops d) cs) then Err ValueError
              else do _ <- check_trained d; check_models cs t
  end.
(* the operators with number ell *)
Definition nth_ops (ell : nat) (l : list model) : res (list mop) := mapM (fun d => nth_r (m_ops d) ell) l.
Fixpoint interp_ops (X : pext) (ps : list pval) (l : list model) (ic : option iclass) (ell : nat) (cs : list cls) : res (list itp) :=
  match cs with
  | [] => Ok []
  | c :: cs' => do c' <- interpolated_class c; do os <- nth_ops ell l; do t <- i_from_operators X c' ps os ic;
                do rest <- interp_ops X ps l ic (S ell) cs'; Ok (t :: rest)
  end.
(* set_interpolator of every operator: models/mono/_parametric.py:1082-1101 *)
Definition set_interp_op (X : pext) (C : iclass) (o : pop) : res pop :=
  match o with
  | PItp t => match i_set_interp (px_cubic X) (px_linnd X) t (Some C) with (t', Ok _) => Ok (PItp t') | (_, Err e) => Err e end
  | _ => Ok o
  end.
Definition iset_interp (X : pext) (ic : option iclass) (d : imodel) : res imodel :=
  match ic with
  | None => Ok d
  | Some C => do l <- mapM (set_interp_op X C) (pm_ops (im_base d));
              Ok {| im_base := pw_ops l (im_base d); im_sub := im_sub d; im_params := im_params d |}
  end.
(* _from_models: models/mono/_parametric.py:1031-1080; models[0] of an empty list raises IndexError *)
Definition i_from_models (X : pext) (k : kind) (ps : list pval) (l : list model) (ic : option iclass) : res imodel :=
  match l with
  | [] => Err IndexError
  | d0 :: _ =>
      let cs := map mo_cls (m_ops d0) in
      do _ <- check_models cs l;
      do ts <- interp_ops X ps l ic 0 cs;
      do d <- imk_model k (map (fun t => POp (PItp t)) ts) SNone;
      iset_interp X ic d
  end.

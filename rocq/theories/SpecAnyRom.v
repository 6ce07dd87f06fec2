(* SpecAnyRom.v -- vocabulary for the statements about ROMs made of any parts. *)
From Coq Require Import ZArith.
From Verif Require Export SpecRom AnyRomModel.
#[local] Open Scope nat_scope.

Section Spec.
  Context {T : tclass} {B : bclass} {A : Type} {D : mclass A}.
  Notation rom := (arom T B D).
  (* nothing but the parts that fit() is asked to fit has changed; these have been fitted on the lifted and on the transformed
     trajectories side by side *)
  Definition afitted (ft fb : bool) (Qs : list arr) (r r' : rom) : Prop :=
    a_lift r' = a_lift r /\ a_ddt r' = a_ddt r /\
    exists ls ts, Forall2 (via (a_lift r) lf_lift) Qs ls /\ Forall2 (via (a_tf r') (ct_transform T)) ls ts /\
      match a_tf r, a_tf r' with
      | None, None => True
      | Some t, Some t' => if ft then exists H, hstack_arr ls = Ok H /\ ct_fit T t H = (t', Ok tt) else t' = t
      | _, _ => False
      end /\
      match a_basis r, a_basis r' with
      | None, None => True
      | Some b, Some b' => if fb then exists H, hstack_arr ts = Ok H /\ cb_fit B b H = (b', Ok tt) else b' = b
      | _, _ => False
      end.
  (* what one trajectory (q, z, u) contributes to the regression: states e, left-hand side d, inputs u' *)
  Definition acontributes (r : rom) (q : arr) (z u : option arr) (e d : arr) (u' : option arr) : Prop :=
    match z with
    | Some z => aencode T B D r q (Some z) = Ok (e, Some d) /\ u' = u
    | None => exists c, aencode1 T B D r q = Ok c /\
        if cm_cont D then exists est E F w, a_ddt r = Some est /\ est c u = Ok (E, F, w) /\ e = M E /\ d = M F /\ match u with None => u' = None | Some _ => u' = w /\ w <> None end
        else exists E, c = M E /\ e = M (map (@removelast R) E) /\ d = M (map (@tl R) E) /\ u' = option_map (cut (ncols (map (@removelast R) E))) u
    end.
  Definition acontributions (r : rom) (Qs : list arr) (Zs Us : option (list arr)) (es ds : list arr) (us : option (list arr)) : Prop :=
    length es = length Qs /\ length ds = length Qs /\ (us = None <-> Us = None) /\ (forall l, us = Some l -> length l = length Qs) /\
    forall i, i < length Qs -> acontributes r (nth i Qs (V [])) (nth_opt Zs i) (nth_opt Us i) (nth i es (V [])) (nth i ds (V [])) (nth_opt us i).
  (* what a fit() that raised e can have left behind: a transformer whose fit() was called on the lifted trajectories; then, if
     that went well, a basis whose fit() was called on the transformed trajectories; then, if all else went well, a model whose
     fit() was called on the contributions of all trajectories and raised e *)
  Definition tf_left (ft : bool) (Qs : list arr) (r r' : rom) : Prop :=
    a_tf r' = a_tf r \/
    (ft = true /\ exists t ls H, a_tf r = Some t /\ Forall2 (via (a_lift r) lf_lift) Qs ls /\ hstack_arr ls = Ok H /\ a_tf r' = Some (fst (ct_fit T t H))).
  Definition basis_left (ft fb : bool) (Qs : list arr) (r r' : rom) : Prop :=
    a_basis r' = a_basis r \/
    (fb = true /\ exists b ls ts H, a_basis r = Some b /\ Forall2 (via (a_lift r) lf_lift) Qs ls /\ Forall2 (via (a_tf r') (ct_transform T)) ls ts /\
       (forall t, a_tf r = Some t -> ft = true -> exists H0, hstack_arr ls = Ok H0 /\ snd (ct_fit T t H0) = Ok tt) /\
       hstack_arr ts = Ok H /\ a_basis r' = Some (fst (cb_fit B b H))).
  Definition model_left (call : fit_call D) (ft fb : bool) (Qs : list arr) (Zs Us : option (list arr)) (e : err) (r r' : rom) : Prop :=
    a_model r' = a_model r \/
    (afitted ft fb Qs r r' /\ exists es ds us, acontributions r' Qs Zs Us es ds us /\ call (a_model r) es ds us = (a_model r', Err e)).
  Definition left_behind (call : fit_call D) (ft fb : bool) (Qs : list arr) (Zs Us : option (list arr)) (e : err) (r r' : rom) : Prop :=
    a_lift r' = a_lift r /\ a_ddt r' = a_ddt r /\ tf_left ft Qs r r' /\ basis_left ft fb Qs r r' /\ model_left call ft fb Qs Zs Us e r r'.
  (* g undoes f on the way from a *)
  Definition undoes {X} (x : option X) (f g : X -> arr -> res arr) : Prop := forall o a b, x = Some o -> f o a = Ok b -> g o b = Ok a.
End Spec.

(* SpecRom.v -- vocabulary for properties C51 to C53 (reduced-order models). *)
From Coq Require Import ZArith.
From Verif Require Export RomModel SpecMono SpecBasis.
#[local] Open Scope nat_scope.

(* the part, if there is one, takes a to b; without it nothing happens *)
Definition via {T A} (x : option T) (f : T -> A -> res A) (a b : A) : Prop := match x with None => b = a | Some t => f t a = Ok b end.
(* a basis with n rows and r columns, orthonormal in its weights *)
Definition orthonormal_basis (n r : nat) (b : rbasis) : Prop :=
  match b with
  | BOne b => exists W A, basis_of n r W A b /\ w_orthonormal n r W A
  | BMany bs => exists ns rs, n = lsumn ns /\ r = lsumn rs /\ bs <> [] /\ members ns rs bs /\ Forall orthonormal bs
  end.
(* transformer (if any) trained for n rows; basis (if any) orthonormal of size n x r, otherwise r = n *)
Definition trained_parts (n r : nat) (P : parts) : Prop :=
  match rp_tf P with Some t => trained n t | None => True end /\ match rp_basis P with Some b => orthonormal_basis n r b | None => r = n end.
(* t is a decompressed state *)
Definition in_range (x : option rbasis) (r k : nat) (t : arr) : Prop :=
  match x with None => True | Some b => exists q, shaped r k q /\ same_kind q t /\ rb_decompress b q None = Ok t end.
(* the lifter (if any) takes a to the lifted state l and back *)
Definition lifts (P : parts) (a l : arr) : Prop := match rp_lift P with None => l = a | Some f => lf_lift f a = Ok l /\ lf_unlift f l = Ok a end.
(* near h = 0, f(a + h d) is an n x k array whose entries have the derivatives e at h = 0 *)
Definition derivative_along (f : arr -> res arr) (a d : arr) (n k : nat) (e : arr) : Prop :=
  exists (G : R -> arr) (delta : R), (0 < delta)%R /\
    (forall h, (Rabs h < delta)%R -> f (acomb a h d) = Ok (G h) /\ shaped n k (G h) /\ same_kind a (G h)) /\ shaped n k e /\ same_kind a e /\
    forall i j, i < n -> j < k -> derivable_pt_lim (fun h => aget (G h) i j) 0 (aget e i j).
(* column j of an array with n rows *)
Definition col (n : nat) (a : arr) (j : nat) : vec := map (fun i => aget a i j) (seq 0 n).
(* f takes arrays with n rows to arrays with m rows, column by column *)
Definition columnwise (n m : nat) (f : arr -> res arr) : Prop :=
  forall k a, shaped n k a -> forall b, f a = Ok b -> shaped m k b /\ same_kind a b /\ forall j, j < k -> f (V (col n a j)) = Ok (V (col m b j)).
(* the lifter (if any) works column by column, from n0 rows to n rows and back *)
Definition columnwise_lifter (n0 n : nat) (x : option lifter) : Prop :=
  match x with None => n = n0 | Some f => columnwise n0 n (lf_lift f) /\ columnwise n n0 (lf_unlift f) end.
(* so does its lift_ddts *)
Definition columnwise_ddts (n0 n : nat) (x : option lifter) : Prop :=
  match x with None => n = n0 | Some f => forall k a d, shaped n0 k a -> shaped n0 k d -> same_kind a d -> forall e, lf_ddts f a d = Ok e ->
    shaped n k e /\ same_kind a e /\ forall j, j < k -> lf_ddts f (V (col n0 a j)) (V (col n0 d j)) = Ok (V (col n e j)) end.

(* P' is P after fit_transformer on the lifted trajectories side by side and fit_basis on the transformed ones *)
Definition fitted_on (ft : bool) (fb : option BasisModel.ext) (Qs : list arr) (P P' : parts) : Prop :=
  rp_lift P' = rp_lift P /\
  exists ls ts, Forall2 (via (rp_lift P) lf_lift) Qs ls /\ Forall2 (via (rp_tf P') transform) ls ts /\
    match rp_tf P, rp_tf P' with
    | None, None => True
    | Some t, Some t' => if ft then exists H b, hstack_arr ls = Ok H /\ fit_transform t H = Ok (t', b) else t' = t
    | _, _ => False
    end /\
    match rp_basis P, rp_basis P' with
    | None, None => True
    | Some b, Some b' => match fb with Some X => exists H, hstack_arr ts = Ok H /\ rb_fit X b H = Ok b' | None => b' = b end
    | _, _ => False
    end.
(* what one trajectory (q, z, u) contributes to the regression: states e, left-hand side d, inputs u' *)
Definition contributes (P : parts) (D : option ddter) (cont : bool) (q : arr) (z u : option arr) (e d : arr) (u' : option arr) : Prop :=
  match z with
  | Some z => encode P cont q (Some z) = Ok (e, Some d) /\ u' = u
  | None => exists c, encode P cont q None = Ok (c, None) /\
      if cont then exists est E F w, D = Some est /\ est c u = Ok (E, F, w) /\ e = M E /\ d = M F /\ match u with None => u' = None | Some _ => u' = w /\ w <> None end
      else exists E, c = M E /\ e = M (map (@removelast R) E) /\ d = M (map (@tl R) E) /\ u' = option_map (cut (ncols (map (@removelast R) E))) u
  end.
Definition nth_opt (l : option (list arr)) (i : nat) : option arr := option_map (fun l => nth i l (V [])) l.
(* the trajectories one by one *)
Definition contributions (P : parts) (D : option ddter) (cont : bool) (Qs : list arr) (Zs Us : option (list arr)) (es ds : list arr) (us : option (list arr)) : Prop :=
  length es = length Qs /\ length ds = length Qs /\
  (us = None <-> Us = None) /\ (forall l, us = Some l -> length l = length Qs) /\
  forall i, i < length Qs -> contributes P D cont (nth i Qs (V [])) (nth_opt Zs i) (nth_opt Us i) (nth i es (V [])) (nth i ds (V [])) (nth_opt us i).
Definition same_length (Qs : list arr) (Xs : option (list arr)) : Prop := forall l, Xs = Some l -> length l = length Qs.
(* the trajectories of the training arguments *)
Definition trajectories_of (T : training) (Qs : list arr) (Zs Us : option (list arr)) : Prop :=
  match T with
  | Single Q Z U => Qs = [M Q] /\ Zs = option_map (fun z => [z]) Z /\ Us = option_map (fun u => [u]) U
  | Several Qs' Zs' Us' => Qs = Qs' /\ Zs = Zs' /\ Us = Us'
  end.
(* inputs with m rows: two-dimensional, or one-dimensional if m = 1; at least as many time steps as pairs *)
Definition usable_inputs (m : nat) (ks : list nat) (us : list arr) : Prop := (0 < m /\ inputs2 m ks us) \/ (m = 1 /\ inputs1 ks us).
(* two input arrays that agree in the first k time steps *)
Definition agree_upto (k : nat) (a b : arr) : Prop :=
  match a, b with
  | V u, V v => k <= length u /\ k <= length v /\ forall i, i < k -> vget u i = vget v i
  | M A, M B => exists m ka kb, is_mat m ka A /\ is_mat m kb B /\ k <= ka /\ k <= kb /\ forall i j, i < m -> j < k -> mget A i j = mget B i j
  | _, _ => False
  end.

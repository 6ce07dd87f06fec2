(* Prop_AnyRom.v -- property C73 (ROMs made of any parts). *)
From Coq Require Import ZArith Reals Lra Lia List.
From Verif Require Import LinAlg MatAlg LiftProofs RomParts RomProofs RomFit RomEx AnyRomProofs AnyRomFit AnyRomLib AnyRomStmts.
From Verif Require Import SpecAnyRom.
#[local] Open Scope nat_scope.
#[local] Open Scope list_scope.

(* C73: a ROM has the parts given to its constructor, except that an estimator is dropped if the model is not time-continuous. *)
Theorem C73_constructor :
  forall T B A (D : mclass A) (d : mobj D) lf (t : option (tobj T)) (b : option (bobj B)) est,
  let r : arom T B D := mk_arom T B D d lf t b est in
  a_model r = d /\ a_lift r = lf /\ a_tf r = t /\ a_basis r = b /\ (cm_cont D = true -> a_ddt r = est) /\ (cm_cont D = false -> a_ddt r = None).
Proof. exact mk_arom_parts. Qed.
Print Assumptions C73_constructor.

(* C73: encode() lifts, transforms and compresses with the parts there are, and returns a value exactly if each of these does. *)
Theorem C73_encode :
  forall T B A (D : mclass A) (r : arom T B D) a q,
  aencode1 T B D r a = Ok q <-> exists l t, via (a_lift r) lf_lift a l /\ via (a_tf r) (ct_transform T) l t /\ via (a_basis r) (cb_compress B) t q.
Proof. exact rom_encode_any. Qed.
Print Assumptions C73_encode.

(* C73: encode(states, lhs) returns the encoded states and the left-hand side, treated as time derivatives if the model is continuous and as states if not. *)
Theorem C73_encode_lhs :
  forall T B A (D : mclass A) (r : arom T B D) a d q z,
  aencode T B D r a (Some d) = Ok (q, z) <-> exists z' dl dt, z = Some z' /\ aencode1 T B D r a = Ok q /\
    (if cm_cont D then via (a_lift r) (fun f => lf_ddts f a) d dl else via (a_lift r) lf_lift d dl) /\
    via (a_tf r) (if cm_cont D then ct_ddts T else ct_transform T) dl dt /\ via (a_basis r) (cb_compress B) dt z'.
Proof. exact rom_encode_lhs_any. Qed.
Print Assumptions C73_encode_lhs.

(* C73: encode() that fits the transformer or the basis fits them on the lifted and on the transformed states and then returns what encode() of the fitted ROM returns. *)
Theorem C73_encode_fit :
  forall T B A (D : mclass A) (r : arom T B D) ft fb a lhs (r' : arom T B D) x,
  (forall t y t' z, ct_fit_transform T t y = (t', Ok z) -> ct_fit T t y = (t', Ok tt) /\ ct_transform T t' y = Ok z) -> aencode_fit T B D r ft fb a lhs = (r', Ok x) ->
  aencode T B D r' a lhs = Ok x /\ a_lift r' = a_lift r /\ a_ddt r' = a_ddt r /\ a_model r' = a_model r /\
  exists l m, via (a_lift r) lf_lift a l /\ via (a_tf r') (ct_transform T) l m /\
    match a_tf r, a_tf r' with None, None => True | Some t, Some t' => if ft then ct_fit T t l = (t', Ok tt) else t' = t | _, _ => False end /\
    match a_basis r, a_basis r' with None, None => True | Some b, Some b' => if fb then cb_fit B b m = (b', Ok tt) else b' = b | _, _ => False end.
Proof. exact rom_encode_fit_any. Qed.
Print Assumptions C73_encode_fit.

(* C73: decode() decompresses, transforms back and unlifts. *)
Theorem C73_decode :
  forall T B A (D : mclass A) (r : arom T B D) q locs x,
  adecode T B D r q locs = Ok x <-> exists t l, via (a_basis r) (fun b y => cb_decompress B b y locs) q t /\
    via (a_tf r) (fun t z => ct_inverse T t z locs) t l /\ via (a_lift r) lf_unlift l x.
Proof. exact rom_decode_any. Qed.
Print Assumptions C73_decode.

(* C73: if each part undoes what it does, decode() undoes encode() and project() is the identity. *)
Theorem C73_decode_encode :
  forall T B A (D : mclass A) (r : arom T B D) a q,
  undoes (a_lift r) lf_lift lf_unlift -> undoes (a_tf r) (ct_transform T) (fun t z => ct_inverse T t z None) ->
    undoes (a_basis r) (cb_compress B) (fun b y => cb_decompress B b y None) -> aencode1 T B D r a = Ok q -> adecode T B D r q None = Ok a /\ aproject T B D r a = Ok a.
Proof. exact rom_decode_encode_any. Qed.
Print Assumptions C73_decode_encode.

(* C73: if each part can be done again after undoing it, encode() undoes decode(). *)
Theorem C73_encode_decode :
  forall T B A (D : mclass A) (r : arom T B D) q x,
  undoes (a_lift r) lf_unlift lf_lift -> undoes (a_tf r) (fun t z => ct_inverse T t z None) (ct_transform T) ->
    undoes (a_basis r) (fun b y => cb_decompress B b y None) (cb_compress B) -> adecode T B D r q None = Ok x -> aencode1 T B D r x = Ok q.
Proof. exact rom_encode_decode_any. Qed.
Print Assumptions C73_encode_decode.

(* C73: then project() is idempotent and does not change what encode() returns. *)
Theorem C73_project :
  forall T B A (D : mclass A) (r : arom T B D) a p,
  undoes (a_lift r) lf_unlift lf_lift -> undoes (a_tf r) (fun t z => ct_inverse T t z None) (ct_transform T) ->
    undoes (a_basis r) (fun b y => cb_decompress B b y None) (cb_compress B) -> aproject T B D r a = Ok p -> aproject T B D r p = Ok p /\ aencode1 T B D r p = aencode1 T B D r a.
Proof. exact rom_project_any. Qed.
Print Assumptions C73_project.

(* C73: predict() decodes the prediction of the model from the encoded initial state. *)
Theorem C73_predict :
  forall T B A (D : mclass A) (r : arom T B D) args q0 Y,
  apredict T B D r args q0 = Ok Y <-> exists e Z, aencode1 T B D r q0 = Ok e /\ cm_predict D (a_model r) args e = Ok Z /\ adecode T B D r Z None = Ok Y.
Proof. exact rom_predict_any. Qed.
Print Assumptions C73_predict.

(* C73: if the prediction of the model starts at its initial state and decode() works by columns, the first column of the prediction of the ROM is the projected initial state. *)
Theorem C73_predict_starts :
  forall T B A (D : mclass A) (r : arom T B D) n p args q0 Y,
  columnwise p n (fun q => adecode T B D r q None) ->
    (forall e Z, aencode1 T B D r (V q0) = Ok (V e) -> cm_predict D (a_model r) args (V e) = Ok Z -> exists k, 0 < k /\ shaped p k Z /\ col p Z 0 = e) ->
    (forall e, aencode1 T B D r (V q0) = Ok e -> exists v, e = V v) ->
    apredict T B D r args (V q0) = Ok Y -> aproject T B D r (V q0) = Ok (V (col n Y 0)).
Proof. exact rom_predict_starts_any. Qed.
Print Assumptions C73_predict_starts.

(* C73: fit() fits the transformer on the lifted trajectories side by side, the basis on the transformed ones, if asked to, and the model on what all trajectories contribute; nothing else changes. *)
Theorem C73_fit :
  forall T B A (D : mclass A) (f : mobj D -> arr -> arr -> option arr -> mobj D * res unit) (r : arom T B D) X ft fb (r' : arom T B D) Qs Zs Us,
  trajectories_of X Qs Zs Us -> same_length Qs Zs -> same_length Qs Us -> arom_fit T B D f r X ft fb = (r', Ok tt) ->
    afitted ft fb Qs r r' /\ exists es ds us Q L U, acontributions r' Qs Zs Us es ds us /\ hstack_arr es = Ok Q /\ hstack_arr ds = Ok L /\ hstack_opt us = Ok U /\ f (a_model r) Q L U = (a_model r', Ok tt).
Proof. exact rom_fit_any. Qed.
Print Assumptions C73_fit.

(* C73: what a fit() that raises can leave behind. *)
Theorem C73_fit_raises :
  forall T B A (D : mclass A) (f : mobj D -> arr -> arr -> option arr -> mobj D * res unit) (r : arom T B D) X ft fb (r' : arom T B D) Qs Zs Us e,
  trajectories_of X Qs Zs Us -> same_length Qs Zs -> same_length Qs Us -> arom_fit T B D f r X ft fb = (r', Err e) ->
    left_behind (stacked D f) ft fb Qs Zs Us e r r'.
Proof. exact rom_fit_raises_any. Qed.
Print Assumptions C73_fit_raises.

(* C73: fit() raises ValueError and changes nothing if a continuous model gets neither a left-hand side nor an estimator, or a model with inputs gets none. *)
Theorem C73_fit_refuses :
  forall T B A (D : mclass A) (f : mobj D -> arr -> arr -> option arr -> mobj D * res unit) (r : arom T B D) X ft fb,
  (cm_cont D = true /\ fst (train_args X) = false /\ a_ddt r = None) \/ (cm_hasin D (a_model r) = true /\ snd (train_args X) = false) -> arom_fit T B D f r X ft fb = (r, Err ValueError).
Proof. exact rom_fit_refuses_any. Qed.
Print Assumptions C73_fit_refuses.

(* C73: with fit_transformer=False and fit_basis=False, a fit() that raises changes nothing if the fit() of the model changes nothing when it raises. *)
Theorem C73_fit_no_refit :
  forall T B A (D : mclass A) (f : mobj D -> arr -> arr -> option arr -> mobj D * res unit) (r : arom T B D) X (r' : arom T B D) Qs Zs Us e,
  trajectories_of X Qs Zs Us -> same_length Qs Zs -> same_length Qs Us -> arom_fit T B D f r X false false = (r', Err e) ->
    a_lift r' = a_lift r /\ a_tf r' = a_tf r /\ a_basis r' = a_basis r /\ a_ddt r' = a_ddt r /\ ((forall Q L U d y, f (a_model r) Q L U = (d, Err y) -> d = a_model r) -> r' = r).
Proof. exact rom_fit_no_refit_any. Qed.
Print Assumptions C73_fit_no_refit.

(* C73: fit() of a parametric ROM hands the model one entry for each trajectory. *)
Theorem C73_parametric_fit :
  forall T B A (D : mclass A) (call : fit_call D) (r : arom T B D) Qs Zs Us ft fb (r' : arom T B D),
  same_length Qs Zs -> same_length Qs Us -> aprom_fit T B D call r Qs Zs Us ft fb = (r', Ok tt) ->
    afitted ft fb Qs r r' /\ exists es ds us, acontributions r' Qs Zs Us es ds us /\ call (a_model r) es ds us = (a_model r', Ok tt).
Proof. exact rom_pfit_any. Qed.
Print Assumptions C73_parametric_fit.

(* C73: what a fit() of a parametric ROM that raises can leave behind. *)
Theorem C73_parametric_fit_raises :
  forall T B A (D : mclass A) (call : fit_call D) (r : arom T B D) Qs Zs Us ft fb (r' : arom T B D) e,
  same_length Qs Zs -> same_length Qs Us -> aprom_fit T B D call r Qs Zs Us ft fb = (r', Err e) -> left_behind call ft fb Qs Zs Us e r r'.
Proof. exact rom_pfit_raises_any. Qed.
Print Assumptions C73_parametric_fit_raises.

(* C73: ROMs of parts of the library are ROMs in this sense. *)
Theorem C73_library :
  forall X r,
  (forall a lhs, aencode _ _ _ (of_rom X (m_kind (rm_model r)) r) a lhs = encode (rm_parts r) (rm_cont r) a lhs) /\
  (forall q locs, adecode _ _ _ (of_rom X (m_kind (rm_model r)) r) q locs = decode (rm_parts r) q locs) /\
  (forall q0 n u, apredict _ _ _ (of_rom X (m_kind (rm_model r)) r) (n, u) q0 = rom_predict r q0 n u) /\
  (forall LX T ft (fb : bool), let x := arom_fit lib_t (lib_b X) (lib_m (m_kind (rm_model r))) (model_fit LX) (of_rom X (m_kind (rm_model r)) r) T ft fb in let y := rom_fit LX r T ft (if fb then Some X else None) in
    snd x = snd y /\ (snd y = Ok tt -> fst x = of_rom X (m_kind (rm_model r)) (fst y))).
Proof. exact lib_rom. Qed.
Print Assumptions C73_library.

(* C73 (refuted claim): project() is idempotent whenever the basis is orthonormal. *)
Theorem C73_project_refuted :
  exists P n r a p p', trained_parts n r P /\ rp_lift P = Some quad_lifter /\ rom_project P a = Ok p /\ rom_project P p = Ok p' /\ p <> p'.
Proof. exact project_not_idempotent. Qed.
Print Assumptions C73_project_refuted.

(* C73 (refuted claim): a fit() that raises leaves the predictions alone. *)
Theorem C73_raising_fit_refuted :
  forall X, exists LX k (r : arom lib_t (lib_b X) (lib_m k)) T (r' : arom lib_t (lib_b X) (lib_m k)) e args q0 Y Y', arom_fit lib_t (lib_b X) (lib_m k) (model_fit LX) r T true true = (r', Err e) /\
  lsx_ok LX /\ reach LX (a_model r) /\ a_model r' = a_model r /\ apredict _ _ _ r args q0 = Ok Y /\ apredict _ _ _ r' args q0 = Ok Y' /\ Y <> Y'.
Proof. exact raising_fit_changes_predictions. Qed.
Print Assumptions C73_raising_fit_refuted.

(* ---- examples ---- *)
(* classes of a user on one state: a shift by the first entry of the data, a change of sign, and the model q -> a q whose
   fit() sets a to 1 and raises if the widths differ, after having set a to 0 *)
Definition amap (f : R -> R) (a : arr) : arr := match a with V v => V (map f v) | M m => M (map (map f) m) end.
Definition first_entry (a : arr) : R := match a with V v => nth 0 v 0%R | M m => nth 0 (nth 0 m []) 0%R end.
Definition ut : tclass := {| tobj := R; ct_fit := fun _ a => (first_entry a, Ok tt); ct_fit_transform := fun _ a => (first_entry a, Ok (amap (fun x => x - first_entry a)%R a));
  ct_transform := fun s a => Ok (amap (fun x => x - s)%R a); ct_ddts := fun _ a => Ok a; ct_inverse := fun s a _ => Ok (amap (fun x => x + s)%R a) |}.
Definition ub : bclass := {| bobj := unit; cb_fit := fun b _ => (b, Ok tt); cb_compress := fun _ a => Ok (amap Ropp a); cb_decompress := fun _ a _ => Ok (amap Ropp a) |}.
Definition um : mclass unit := {| mobj := R; cm_cont := false; cm_hasin := fun _ => false;
  cm_predict := fun a _ q => match q with V [x] => Ok (M [[x; a * x]]%R) | _ => Err ValueError end |}.
Definition uf (a : R) (Q L : arr) (_ : option arr) : R * res unit := match Q, L with M Q, M L => if length Q =? length L then (1%R, Ok tt) else (0%R, Err ValueError) | _, _ => (0%R, Err ValueError) end.
Definition ur (s a : R) : arom ut ub um := mk_arom ut ub um a None (Some s) (Some tt) None.
Lemma amap_amap f g a : (forall x, g (f x) = x) -> amap g (amap f a) = a.
Proof. intros K. assert (L : forall l, map g (map f l) = l) by (intros l; rewrite map_map; rewrite <- (map_id l) at 2; apply map_ext; auto).
  destruct a as [v|m]; cbn; f_equal; [apply L|]. rewrite map_map. rewrite <- (map_id m) at 2. apply map_ext. auto. Qed.
Example C73_parts_example s a x : undoes (a_lift (ur s a)) lf_lift lf_unlift /\ undoes (a_lift (ur s a)) lf_unlift lf_lift /\
  undoes (a_tf (ur s a)) (ct_transform ut) (fun t z => ct_inverse ut t z None) /\ undoes (a_tf (ur s a)) (fun t z => ct_inverse ut t z None) (ct_transform ut) /\
  undoes (a_basis (ur s a)) (cb_compress ub) (fun b y => cb_decompress ub b y None) /\ undoes (a_basis (ur s a)) (fun b y => cb_decompress ub b y None) (cb_compress ub) /\
  aencode1 ut ub um (ur s a) (V [x]) = Ok (V [- (x - s)]%R) /\ adecode ut ub um (ur s a) (V [x]) None = Ok (V [- x + s]%R) /\
  columnwise 1 1 (fun q => adecode ut ub um (ur s a) q None) /\ apredict ut ub um (ur s a) tt (V [x]) = Ok (M [[- - (x - s) + s; - (a * - (x - s)) + s]]%R).
Proof. split; [discriminate|]. split; [discriminate|]. split. { intros o y b K E. cbn in E. injection E as <-. cbn. f_equal. apply amap_amap. intros z. ring. }
  split. { intros o y b K E. cbn in E. injection E as <-. cbn. f_equal. apply amap_amap. intros z. ring. }
  split. { intros o y b K E. cbn in E. injection E as <-. cbn. f_equal. apply amap_amap. intros z. ring. }
  split. { intros o y b K E. cbn in E. injection E as <-. cbn. f_equal. apply amap_amap. intros z. ring. }
  split; [reflexivity|]. split; [reflexivity|]. split; [|reflexivity].
  intros k [v|m] Hs b E; cbn in E; injection E as <-.
  - destruct Hs as [Hl ->]. destruct v as [|y [|]]; try discriminate. split; [split; reflexivity|]. split; [exact I|]. intros [|j] Hj; [reflexivity|lia].
  - destruct Hs as [Hl Hr]. destruct m as [|y [|]]; try discriminate. inversion Hr as [|? ? Hy _]. subst. split; [split; [reflexivity|constructor; [cbn; rewrite !map_length; auto|constructor]]|]. split; [exact I|].
    intros j Hj. assert (K : nth j (map (fun x0 => (x0 + s)%R) (map Ropp y)) 0%R = (- nth j y 0 + s)%R).
    { rewrite map_map. rewrite (nth_indep _ 0%R ((fun x0 => - x0 + s) 0)%R) by (rewrite map_length; exact Hj). apply (map_nth (fun x0 => (- x0 + s)%R)). }
    change (Ok (V [(- nth j y 0 + s)%R]) = Ok (V [nth j (map (fun x0 => (x0 + s)%R) (map Ropp y)) 0%R])). rewrite K. reflexivity. Qed.
(* a fit() that succeeds, one that raises in the model's fit(), one that is refused, with parameters and without *)
Example C73_fit_example s a : trajectories_of (Single [[5; 7]]%R None None) [M [[5; 7]]%R] None None /\ same_length [M [[5; 7]]%R] (None : option (list arr)) /\
  arom_fit ut ub um uf (ur s a) (Single [[5; 7]]%R None None) true true = (ur 5 1, Ok tt) /\
  aprom_fit ut ub um (stacked um uf) (ur s a) [M [[5; 7]]%R] None None true true = (ur 5 1, Ok tt) /\
  arom_fit ut ub um uf (ur s a) (Single [[5; 7]]%R (Some (M [[1; 1]; [1; 1]]%R)) None) true true = (ur 5 0, Err ValueError) /\
  arom_fit ut ub um uf (ur s a) (Single [[5; 7]]%R (Some (M [[1; 1]; [1; 1]]%R)) None) false false = (ur s 0, Err ValueError) /\
  aprom_fit ut ub um (stacked um uf) (ur s a) [M [[5; 7]]%R] (Some [M [[1; 1]; [1; 1]]%R]) None true true = (ur 5 0, Err ValueError).
Proof. split; [repeat split|]. split; [discriminate|]. repeat (split; [reflexivity|]). reflexivity. Qed.
Example C73_refused_example (X : BasisModel.ext) (d : model) f : let r : arom lib_t (lib_b X) (lib_m KContinuous) := mk_arom lib_t (lib_b X) (lib_m KContinuous) d None None None None in
  cm_cont (lib_m KContinuous) = true /\ fst (train_args (Single [[5; 7]]%R None None)) = false /\ a_ddt r = None /\ arom_fit lib_t (lib_b X) (lib_m KContinuous) f r (Single [[5; 7]]%R None None) true true = (r, Err ValueError).
Proof. repeat (split; [reflexivity|]). reflexivity. Qed.
Example C73_encode_fit_example s a x y : (forall t b t' z, ct_fit_transform ut t b = (t', Ok z) -> ct_fit ut t b = (t', Ok tt) /\ ct_transform ut t' b = Ok z) /\
  aencode_fit ut ub um (ur s a) true true (M [[x; y]]) None = (ur x a, Ok (M [[- (x - x); - (y - x)]]%R, None)).
Proof. split; [|reflexivity]. intros t b t' z K. cbn in *. injection K as <- <-. split; reflexivity. Qed.

(* VerifyModel.v -- the verify() methods of transformers and bases: pre/_base.py, pre/_multi.py, basis/_base.py,
   basis/_multi.py.  Random arrays and random locations are parameters; printing is not modelled.  A user's class is a
   record of its methods.  "x is y" for arrays: they show the same cells of memory (PreHeap.v).  No proofs here. *)
From Coq Require Import ZArith.
From Verif Require Export PreHeap BasisModel OpsModel DdtModel.
#[local] Open Scope nat_scope.

Definition harr_is (x y : harr) : bool :=
  match x, y with
  | HV l, HV l' => if list_eq_dec Nat.eq_dec l l' then true else false
  | HM m, HM m' => if list_eq_dec (list_eq_dec Nat.eq_dec) m m' then true else false
  | _, _ => false
  end.
(* a.shape == b.shape *)
Definition shape_eqb (a b : arr) : bool :=
  match a, b with
  | V u, V v => length u =? length v
  | M A, M B => (nrows A =? nrows B) && (ncols A =? ncols B)
  | _, _ => false
  end.
(* np.allclose(a, b) for arrays of the same shape *)
Definition aclose (a b : arr) : bool :=
  match a, b with V u, V v => allclose [u] [v] | M A, M B => allclose A B | _, _ => false end.
(* la.norm(A - B) / la.norm(B) > tol; 0/0 is nan, which is not greater, and x/0 is inf, which is *)
Definition fnorm (A : mat) : R := fro (M A).
Definition exceeds (A B : mat) (tol : R) : bool :=
  if Req_EM_T (fnorm B) 0 then (if Req_EM_T (fnorm (msub A B)) 0 then false else true)
  else if Rlt_dec tol (fnorm (msub A B) / fnorm B) then true else false.
(* np.linspace(0, 0.1, 20): pre/_base.py:313 (the test states have 20 columns) *)
Definition vtimes : vec := map (fun i => INR i * (1 / 10 / 19))%R (seq 0 20).
Definition hassert (b : bool) : H unit := if b then hret tt else hlift (Err VerificationError).

(* ---- TransformerTemplate.verify: pre/_base.py:232-355 -------------------------------------------------------------- *)
(* the methods it calls; vo_ddts is None if transform_ddts() returns NotImplemented.  vo_locs: _verify_locs *)
Record vobj := { vo_dim : option nat; vo_transform : bool -> harr -> H (unit * harr);
                 vo_inverse : option locsel -> bool -> harr -> H (unit * harr); vo_ddts : option (bool -> harr -> H (unit * harr));
                 vo_locs : harr -> harr -> H unit }.
(* the array part of the result *)
Definition hsnd (m : H (unit * harr)) : H harr := hbind m (fun r => hret (snd r)).
Definition hcopy (x : harr) : H harr := hread x hnew.
(* lines 310-334 *)
Definition verify_ddts (dd : bool -> harr -> H (unit * harr)) (tol : R) (states y : harr) : H unit :=
  hbind (hsnd (dd false states)) (fun _ =>
  hread states (fun s => hbind (hlift (ddt s [AArray (V vtimes)] [])) (fun D =>
  hbind (hnew (M D)) (fun ddts =>
  hbind (hsnd (dd false ddts)) (fun e =>
  hbind (hassert (negb (harr_is e ddts))) (fun _ =>
  hread y (fun a => hbind (hlift (ddt a [AArray (V vtimes)] [])) (fun est =>
  hread e (fun b =>
  hbind (hassert (match b with M E => negb (exceeds E est tol) | V _ => false end)) (fun _ =>
  hbind (hsnd (dd true ddts)) (fun e2 => hassert (harr_is e2 ddts)))))))))))).
(* lines 272-308, after the first call *)
Definition verify_rest (o : vobj) (tol : R) (states : harr) : H unit :=
    hbind (hcopy states) (fun c =>
    hbind (hsnd (vo_transform o true c)) (fun y =>
    hbind (hassert (harr_is y c)) (fun _ =>
    hbind (hsnd (vo_inverse o None false y)) (fun z0 =>
    hread z0 (fun b => hread states (fun s => hbind (hassert (shape_eqb b s)) (fun _ =>
    hbind (hassert (negb (harr_is z0 y))) (fun _ =>
    hbind (hcopy y) (fun yc =>
    hbind (hsnd (vo_inverse o None true yc)) (fun z =>
    hbind (hassert (harr_is z yc)) (fun _ =>
    hread z (fun b => hread states (fun s => hbind (hassert (aclose b s)) (fun _ =>
    hbind (vo_locs o states y) (fun _ =>
    match vo_ddts o with None => hret tt | Some dd => verify_ddts dd tol states y end))))))))))))))).
(* lines 255-271, on the random states X *)
Definition h_verify (o : vobj) (X : nat -> mat) (tol : R) : H unit :=
  match vo_dim o with
  | None => hlift (Err AttributeError)
  | Some n =>
    hbind (hnew (M (X n))) (fun states =>
    hbind (hsnd (vo_transform o false states)) (fun y0 =>
    hread y0 (fun a => hread states (fun s => hbind (hassert (shape_eqb a s)) (fun _ =>
    hbind (hassert (negb (harr_is y0 states))) (fun _ => verify_rest o tol states))))))
  end.
(* _verify_locs with the random locations: pre/_base.py:336-355 *)
Definition zlocs (idx : list nat) : locsel := LIdx (map Z.of_nat idx).
Definition check_at (got want : arr) : H unit := hbind (hassert (shape_eqb got want)) (fun _ => hassert (aclose got want)).
Definition h_locs (inv : option locsel -> bool -> harr -> H (unit * harr)) (draw : nat -> list nat) (states y : harr) : H unit :=
  hread states (fun s => let idx := draw (alen s) in
  hread y (fun a => hbind (hnew (asel idx a)) (fun ya =>
  hbind (hsnd (inv (Some (zlocs idx)) false ya)) (fun z => hread z (fun b => check_at b (asel idx s)))))).
(* TransformerMulti._verify_locs: pre/_multi.py:775-800 *)
Definition hm_locs (l : list tf) (draw : nat -> list nat) (states y : harr) : H unit :=
  match allsome (variable_sizes l) with
  | None => hlift (Err TypeError)
  | Some ns =>
    if negb (all_same ns) then hret tt
    else let idx := draw (nth 0 ns 0) in
      hread states (fun s => hbind (hlift (multi_split (variable_sizes l) s)) (fun ss =>
      hbind (hlift (aconcat (map (asel idx) ss))) (fun want =>
      hread y (fun a => hbind (hlift (multi_split (variable_sizes l) a)) (fun ys =>
      hbind (hlift (aconcat (map (asel idx) ys))) (fun ya =>
      hbind (hnew ya) (fun z => hbind (hsnd (hinverse (Some (zlocs idx)) (TMulti l) false z)) (fun z =>
      hread z (fun b => check_at b want)))))))))
  end.
(* the methods of the library's transformers *)
Definition tf_obj (t : tf) (draw : nat -> list nat) : vobj :=
  {| vo_dim := tf_dim t; vo_transform := htransform t; vo_inverse := fun locs => hinverse locs t; vo_ddts := Some (htransform_ddts t);
     vo_locs := match t with TMulti l => hm_locs l draw | _ => h_locs (fun locs => hinverse locs t) draw end |}.
(* verify() of a transformer; TransformerMulti verifies its members first (pre/_multi.py:747-773).  rx, rl: the states
   and locations drawn for the transformer at a position in the tree of members, for a given size. *)
Section Verify.
Variables (rx : list nat -> nat -> mat) (rl : list nat -> nat -> list nat) (tol : R).
Fixpoint tf_verify (t : tf) (path : list nat) {struct t} : H unit :=
  match t with
  | TMulti l =>
      hbind ((fix members (l : list tf) (i : nat) : H unit :=
                match l with [] => hret tt | u :: l' => hbind (tf_verify u (i :: path)) (fun _ => members l' (S i)) end) l 0)
            (fun _ => h_verify (tf_obj t (rl path)) (rx path) tol)
  | _ => h_verify (tf_obj t (rl path)) (rx path) tol
  end.
End Verify.

(* ---- BasisTemplate.verify: basis/_base.py:230-294 -------------------------------------------------------------------- *)
Definition rassert (b : bool) : res unit := if b then Ok tt else Err VerificationError.
Definition is_vec1 (a : arr) : bool := match a with V _ => true | M _ => false end.
Definition acols (a : arr) : res nat := match a with M A => Ok (ncols A) | V _ => Err IndexError end.   (* a.shape[1] *)
(* compress, decompress, project and _verify_locs are the methods of the object *)
Definition v_basis (dim : option nat) (compress : arr -> res arr) (decompress : arr -> option locsel -> res arr)
    (locs : arr -> arr -> res unit) (X : nat -> mat) : res unit :=
  match dim with
  | None => Err AttributeError
  | Some n =>
    let states := X n in
    do q <- compress (M states);
    do k <- acols q; do _ <- rassert (k =? ncols states);
    do q1 <- compress (V (map (fun row => nth 0 row 0%R) states));
    do _ <- rassert (is_vec1 q1);
    do p <- decompress q None;
    do _ <- rassert (shape_eqb p (M states));
    do p1 <- decompress q1 None;
    do _ <- rassert (is_vec1 p1);
    do _ <- locs q p;
    do q2 <- compress p; do p2 <- decompress q2 None;
    rassert (aclose p2 p)
  end.
(* _verify_locs: basis/_base.py:274-294 *)
Definition t_blocs (decompress : arr -> option locsel -> res arr) (draw : nat -> list nat) (q p : arr) : res unit :=
  let idx := draw (alen p) in
  do x <- decompress q (Some (zlocs idx));
  do _ <- rassert (shape_eqb x (asel idx p)); rassert (aclose x (asel idx p)).
Definition b_locs (b : basis) : (nat -> list nat) -> arr -> arr -> res unit := t_blocs (b_decompress b).
Definition b_verify (b : basis) (draw : nat -> list nat) (X : nat -> mat) : res unit :=
  v_basis (b_n b) (b_compress b) (b_decompress b) (b_locs b draw) X.
(* BasisMulti._verify_locs: basis/_multi.py:528-552 *)
Definition bm_locs (bs : list basis) (draw : nat -> list nat) (q p : arr) : res unit :=
  match full_sizes bs with
  | None => Err TypeError
  | Some ns =>
    if negb (all_same ns) then Ok tt
    else let idx := draw (nth 0 ns 0) in
      do ps <- bsplit bs p; do want <- aconcat (map (asel idx) ps);
      do x <- bm_decompress bs q (Some (zlocs idx));
      do _ <- rassert (shape_eqb x want); rassert (aclose x want)
  end.
(* BasisMulti.verify: basis/_multi.py:517-526, with the draws for each member and for the whole *)
Fixpoint b_verify_all (bs : list basis) (draws : nat -> nat -> list nat) (Xs : nat -> nat -> mat) (i : nat) : res unit :=
  match bs with [] => Ok tt | b :: bs' => do _ <- b_verify b (draws i) (Xs i); b_verify_all bs' draws Xs (S i) end.
Definition bm_verify (bs : list basis) (draws : nat -> nat -> list nat) (Xs : nat -> nat -> mat) (draw : nat -> list nat) (X : nat -> mat) : res unit :=
  do _ <- b_verify_all bs draws Xs 0;
  v_basis (option_map lsumn (full_sizes bs)) (bm_compress bs) (bm_decompress bs) (bm_locs bs draw) X.
(* BasisMulti.project, projection_error: basis/_multi.py:403-464, as for other bases *)
Definition bm_project : list basis -> arr -> res arr := project bm_compress bm_decompress.
Definition bm_projection_error : list basis -> arr -> bool -> res R := projection_error bm_compress bm_decompress.

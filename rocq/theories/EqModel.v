(* EqModel.v -- the == of transformers, bases and interpolated operators: pre/_shiftscale.py:969-989, pre/_multi.py:445-456,
   basis/_linear.py:232-249, basis/_multi.py:154-163, operators/_interpolate.py:282-316.  The == of operators, models and
   posteriors is in EntriesModel.v, MonoModel.v and SaveModel.v.  Comparisons of floating-point numbers are those of the
   reals.  No proofs here. *)
From Verif Require Export SaveModel.
#[local] Open Scope nat_scope.

Definition reqb (x y : R) : bool := if Req_EM_T x y then true else false.
(* np.all(a == b) with numpy's broadcasting; shapes that do not broadcast count as different (older numpy; newer numpy
   raises) *)
Definition coef_eqb (a b : PreModel.coef) : bool :=
  match a, b with
  | Sc x, Sc y => reqb x y
  | Sc x, Vc v | Vc v, Sc x => forallb (reqb x) v
  | Vc u, Vc v =>
      if length u =? length v then veqb u v
      else match u, v with [x], _ => forallb (reqb x) v | _, [x] => forallb (reqb x) u | _, _ => false end
  end.
Definition onat_eqb (a b : option nat) : bool := match a, b with None, None => true | Some m, Some n => m =? n | _, _ => false end.
Definition scaling_eqb (a b : option scaling) : bool :=
  match a, b with
  | None, None | Some Standard, Some Standard | Some Minmax, Some Minmax | Some Minmaxsym, Some Minmaxsym
  | Some Maxabs, Some Maxabs | Some Maxabssym, Some Maxabssym | Some Maxnorm, Some Maxnorm | Some Maxnormsym, Some Maxnormsym => true
  | _, _ => false
  end.
(* ShiftScaleTransformer.__eq__: _shiftscale.py:969-989.  A getattr(self, "shift_") that is None differs from any array. *)
Definition ss_eqb (a b : ss) : bool :=
  Bool.eqb (ss_cent a) (ss_cent b) && scaling_eqb (ss_scaling a) (ss_scaling b) && Bool.eqb (ss_byrow a) (ss_byrow b) &&
  onat_eqb (ss_n a) (ss_n b) &&
  (if ss_cent a then match ss_mean a with
                     | None => true
                     | Some m => match ss_mean b with None => false | Some m' => coef_eqb (Vc m) (Vc m') end
                     end else true) &&
  (if is_none (ss_scaling a) then true
   else match ss_scale a with
        | None => true
        | Some c => match ss_scale b with
                    | None => false
                    | Some c' => coef_eqb c c' &&
                        match ss_shift b with
                        | None => false
                        | Some d' => match ss_shift a with None => false | Some d => coef_eqb d d' end
                        end
                    end
        end).
(* t1 == t2 for two members of a TransformerMulti.  ShiftTransformer, ScaleTransformer, NullTransformer and
   TransformerPipeline define no __eq__, so they are compared by identity: [same] says whether t1 and t2 are one object. *)
Definition tf_eqb (same : bool) (a b : tf) : bool :=
  match a, b with
  | TSS s, TSS s' => ss_eqb s s'
  | TSS _, _ | _, TSS _ => false
  | _, _ => same
  end.
Fixpoint members_eqb (same : list bool) (l l' : list tf) : bool :=
  match l, l', same with
  | t :: r, t' :: r', b :: bs => tf_eqb b t t' && members_eqb bs r r'
  | [], [], _ => true
  | _, _, _ => false
  end.
(* TransformerMulti.__eq__: _multi.py:445-456; same has one entry per member *)
Definition multi_eqb (same : list bool) (l l' : list tf) : bool := (length l =? length l') && members_eqb same l l'.

(* np.allclose of two one-dimensional arrays of the same length *)
Definition vclose (u v : vec) : bool := forallb (fun p => rleb (Rabs (fst p - snd p)) (/ 10 ^ 8 + / 10 ^ 5 * Rabs (snd p))%R) (combine u v).
(* np.allclose(w1, w2): _linear.py:245-248.  A diagonal (sparse) and a dense matrix cannot be compared: an exception, which
   one depends on the version of numpy.  Weights of different sizes raise too (broadcasting is not modelled). *)
Definition w_close (a b : weight) : res bool :=
  match a, b with
  | WDiag u, WDiag v => if length u =? length v then Ok (vclose u v) else Err ValueError
  | WMat A, WMat B => if (nrows A =? nrows B) && (ncols A =? ncols B) then Ok (allclose A B) else Err ValueError
  | _, _ => Err OtherError
  end.
Definition w_of (b : basis) : option weight := match b with BLin l => lb_weights l | BPod p => p_weights p end.
Definition e_of (b : basis) : option mat := match b with BLin l => Some (lb_entries l) | BPod p => p_entries p end.
(* the second component of shape, basis/_base.py:53-55, as it is stored *)
Definition b_rank (b : basis) : option Z := match b with BLin l => Some (Z.of_nat (lb_r l)) | BPod p => p_r p end.
Definition oz_eqb (a b : option Z) : bool := match a, b with None, None => true | Some m, Some n => (m =? n)%Z | _, _ => false end.
Definition oent_eqb (a b : option mat) : bool := match a, b with None, None => true | Some A, Some B => meqb A B | _, _ => false end.
(* LinearBasis.__eq__: _linear.py:232-249, which PODBasis inherits.  PODBasis is a subclass of LinearBasis: Python asks the
   PODBasis first and the answer is False.  (Entries of different shapes count as different.) *)
Definition b_eqb (a b : basis) : res bool :=
  match a, b with
  | BLin _, BPod _ | BPod _, BLin _ => Ok false
  | _, _ =>
      if negb (onat_eqb (b_n a) (b_n b) && oz_eqb (b_rank a) (b_rank b)) then Ok false
      else do w <- match w_of a, w_of b with
                   | None, None => Ok true
                   | Some w, Some w' => w_close w w'
                   | _, _ => Ok false
                   end;
           if w then Ok (oent_eqb (e_of a) (e_of b)) else Ok false
  end.
(* all(b1 == b2 for ...), which stops at the first False *)
Fixpoint bases_eqb (l l' : list basis) : res bool :=
  match l, l' with
  | a :: r, b :: r' => do x <- b_eqb a b; if x then bases_eqb r r' else Ok false
  | _, _ => Ok true
  end.
(* BasisMulti.__eq__: basis/_multi.py:154-163 *)
Definition bm_eqb (l l' : list basis) : res bool := if negb (length l =? length l') then Ok false else bases_eqb l l'.

Definition pval_eqb (p q : pval) : bool := match p, q with PS x, PS y => reqb x y | PV u, PV v => veqb u v | _, _ => false end.
Fixpoint lall {A} (f : A -> A -> bool) (l l' : list A) : bool :=
  match l, l' with [], [] => true | a :: r, b :: r' => f a b && lall f r r' | _, _ => false end.
(* _InterpOperator.__eq__: operators/_interpolate.py:282-316.  same: whether the two interpolator classes (or None) are the same object.
   Arrays of different shapes count as different; entries are compared with np.allclose. *)
Definition i_eqb (same : bool) (a b : itp) : bool :=
  cls_eqb (i_cls a) (i_cls b) &&
  match i_params a, i_params b with None, None => true | Some l, Some l' => lall pval_eqb l l' | _, _ => false end &&
  same &&
  match i_entries a, i_entries b with
  | None, None => true
  | Some l, Some l' => lall (fun o o' => (nrows (entries2 o) =? nrows (entries2 o')) && (ncols (entries2 o) =? ncols (entries2 o')) &&
                                         allclose (entries2 o) (entries2 o')) l l'
  | _, _ => false
  end.

(** Model of VartimeSFANode (mdp/nodes/sfa_nodes.py:376-612) and, over an ordered field, of VartimeCovarianceMatrix (mdp/utils/covariance.py:143-339).

    Conventions as in SFAModel.v; sqrt(dt) * sqrt(dt) is taken as dt.  A chunk has at least one row.  [junk] is the content of the memory returned by numx.empty.
    An exception of type Exception is VRaise; TypeError of a list as dt is not modelled. *)
From Coq Require Import List Arith ZArith Bool.
From Verif Require Import OField LinAlg PCAModel SymeigModel SFAModel.
Import ListNotations.
Open Scope nat_scope.

Section VSFA.
  Context {K : ofield}.
  Notation vec := (vec (K := K)). Notation mtx := (mtx (K := K)). Notation sfa := (sfa (K := K)).
  Variable dim : nat.                     (* input_dim *)
  Variable solver : method -> option (Z * Z) -> nat -> mtx -> mtx -> solres K vec.
  Variable junk : vec.

  (** the argument dt: None, a number, an array *)
  Inductive incr := INone | IConst (q : K) | IArr (l : list K).
  (** VartimeCovarianceMatrix: _cov_mtx, _avg, _tlen, tchunk, xlast; the sums are zero before the first update *)
  Record vacc := mkW { w_m : mtx; w_s : vec; w_t : K; w_chunks : nat; w_last : vec }.
  Definition vacc_new : vacc := mkW (fun _ _ => f0) (fun _ => f0) f0 0 vzero.
  (** the checks, mdp/utils/covariance.py:225-235 and mdp/nodes/sfa_nodes.py:510-520 *)
  Definition bad (chunks n : nat) (dt : incr) (td : bool) : bool :=
    match dt with
    | IArr l => (td && (0 <? chunks) && (n - 1 =? length l)) || (negb (length l =? n) && negb (length l =? n - 1))
    | IConst q => negb (fltb f0 q)
    | INone => false
    end.
  (** dt[-n+1:]; all of dt for n = 1 *)
  Definition lastn (n : nat) (l : list K) : list K := match n with 1 => l | _ => skipn (length l - (n - 1)) l end.
  (** the increment of the gap between chunks, mdp/utils/covariance.py:243-260 *)
  Definition gap_of (chunks n : nat) (dt : incr) (td : bool) : option K :=
    if 0 <? chunks then
      match dt with
      | IArr l => if length l =? n then Some (hd f0 l) else None
      | IConst q => if td then Some q else None
      | INone => if td then Some f1 else None
      end
    else None.
  Definition wsum2 (ws : list K) (xs : list vec) : mtx := fun i j => fsum (map (fun p : K * vec => fst p * (snd p i * snd p j))%of (combine ws xs)).
  Definition wsum1 (ws : list K) (xs : list vec) : vec := fun i => fsum (map (fun p : K * vec => fst p * snd p i)%of (combine ws xs)).
  Definition two : K := (f1 + f1)%of.
  (** update, mdp/utils/covariance.py:175-294; None: Exception *)
  Definition vacc_update (s : vacc) (x : list vec) (dt : incr) (td : bool) : option vacc :=
    let n := length x in
    if bad (w_chunks s) n dt td then None
    else
      let x0 := hd vzero x in
      let '(m, a, t) := match gap_of (w_chunks s) n dt td with
                        | Some d => (fun i j => w_m s i j + (w_last s i * w_last s j + x0 i * x0 j) * d / two, fun i => w_s s i + (w_last s i + x0 i) * d / two, w_t s + d)%of
                        | None => (w_m s, w_s s, w_t s)
                        end in
      let ws := match dt with INone => repeat f1 (n - 1) | IConst q => repeat q (n - 1) | IArr l => lastn n l end in
      Some (mkW (fun i j => m i j + wsum2 ws (tl x) i j / two + wsum2 ws (removelast x) i j / two)%of (fun i => a i + wsum1 ws (removelast x) i / two + wsum1 ws (tl x) i / two)%of
                (t + fsum ws)%of (S (w_chunks s)) (last x vzero)).
  (** fix, mdp/utils/covariance.py:296-339: matrix, average, length *)
  Definition vacc_fix (center : bool) (s : vacc) : mtx * vec * K :=
    let t := w_t s in
    (if center then (fun i j => w_m s i j / t - w_s s i * w_s s j / (t * t))%of else (fun i j => w_m s i j / t)%of, fun i => (w_s s i / t)%of, t).

  (** VartimeSFANode: the attributes of SFANode, (_cov_mtx, _dcov_mtx), tlen, dtlen, tchunk, xlast *)
  Record vsfa := mkVS { v_sfa : sfa; v_accs : option (vacc * vacc); v_tlen : K; v_dtlen : K; v_tchunk : nat; v_xlast : vec }.
  Inductive vres (T : Type) := VOk (v : T) | VErr (e : serr) | VRaise.
  Arguments VOk {T}. Arguments VErr {T}. Arguments VRaise {T}.
  (** __init__ mdp/nodes/sfa_nodes.py:399-452, _init_cov :454-459 *)
  Definition vsfa_new (out : option nat) (m : method) : vsfa := mkVS (mkS out true None None (fun _ => f0) 0 0 m 0 [] [] [] false true) (Some (vacc_new, vacc_new)) f0 f0 0 vzero.
  (** the rows (x[1:] - x[:-1]) / dt *)
  Definition quot (a b : vec) (d : K) : vec := fun i => ((a i - b i) / d)%of.
  Definition rows (x : list vec) (ws : list K) : list vec := map (fun p : vec * vec * K => quot (fst (fst p)) (snd (fst p)) (snd p)) (combine (combine (tl x) (removelast x)) ws).
  (** time_derivative mdp/nodes/sfa_nodes.py:461-551, for x with at least two rows; the result and the new state *)
  Definition v_derivative (s : vsfa) (x : list vec) (dt : incr) (td : bool) : vsfa * vres (list vec) :=
    let n := length x in
    if bad (v_tchunk s) n dt td then (s, VRaise)
    else
      let long := match dt with
                  | INone | IConst _ => td && (0 <? v_tchunk s)
                  | IArr l => negb ((v_tchunk s =? 0) || negb (length l =? n))
                  end in
      let x0 := hd vzero x in
      let first := if (0 <? v_tchunk s) && td then
                     match dt with
                     | INone => fun i => (x0 i - v_xlast s i)%of
                     | IConst q => quot x0 (v_xlast s) q
                     | IArr l => quot x0 (v_xlast s) (hd f0 l)
                     end
                   else junk in
      let rest := match dt with
                  | IArr l => rows x (lastn n l)
                  | IConst q => rows x (repeat q (n - 1))
                  | INone => time_derivative x
                  end in
      (mkVS (v_sfa s) (v_accs s) (v_tlen s) (v_dtlen s) (S (v_tchunk s)) (last x vzero), VOk (if long then first :: rest else rest)).
  Definition set_started (s : sfa) : sfa :=
    mkS (s_out s) (s_incl s) (s_accs s) (s_mats s) (s_avg s) (s_tlen s) (s_dtlen s) (s_meth s) (s_dfc s) (s_d s) (s_sf s) (s_bias s) true (s_training s).
  (** Node.train (mdp/signal_node.py:590-617), _check_train_args mdp/nodes/sfa_nodes.py:228-242 and _train :553-612 *)
  Definition v_train (s : vsfa) (x : list vec) (dt : incr) (td : bool) : vsfa * vres unit :=
    let n := length x in
    if negb (s_training (v_sfa s)) then (s, VErr SFinished)
    else if n =? 0 then (s, VErr SNode)
    else if n <? 2 then (s, VErr STraining)
    else
      let s := mkVS (set_started (v_sfa s)) (v_accs s) (v_tlen s) (v_dtlen s) (v_tchunk s) (v_xlast s) in
      match v_accs s with
      | None => (s, VErr SAttribute)
      | Some (c, dc) =>
          match vacc_update c x dt td with
          | None => (s, VRaise)
          | Some c =>
              let put s dc := mkVS (v_sfa s) (Some (c, dc)) (v_tlen s) (v_dtlen s) (v_tchunk s) (v_xlast s) in
              match v_derivative s x dt td with
              | (s, VOk y) =>
                  let dt' := match dt with
                             | INone => INone
                             | IConst q => IConst q
                             | IArr l => if n - 1 <? length y then IArr l else IArr (tl l)
                             end in
                  match vacc_update dc y dt' td with
                  | None => (put s dc, VRaise)
                  | Some dc => (put s dc, VOk tt)
                  end
              | (s, VErr e) => (put s dc, VErr e)
              | (s, VRaise) => (put s dc, VRaise)
              end
          end
      end.
  (** calls of train; the first exception ends the sequence *)
  Definition vcall : Type := list vec * incr * bool.
  Fixpoint v_trains (s : vsfa) (calls : list vcall) : vsfa * vres unit :=
    match calls with [] => (s, VOk tt) | (x, dt, td) :: r => match v_train s x dt td with (s, VOk _) => v_trains s r | e => e end end.
  (** stop_training: the matrices are computed once (mdp/nodes/sfa_nodes.py:264-276), the rest is that of SFANode *)
  Definition v_stop (s : vsfa) (debug : bool) : vsfa * sres unit :=
    let b := v_sfa s in
    if s_training b && negb (s_started b) then (s, SErr STraining)
    else if negb (s_training b) then (s, SErr SFinished)
    else
      let s := match v_accs s with
               | None => s
               | Some (c, dc) =>
                   let '(cm, avg, t) := vacc_fix true c in
                   let '(dm, _, dt) := vacc_fix false dc in
                   mkVS (mkS (s_out b) (s_incl b) None (Some (cm, dm)) avg (s_tlen b) (s_dtlen b) (s_meth b) (s_dfc b) (s_d b) (s_sf b) (s_bias b) (s_started b) (s_training b)) None t dt (v_tchunk s) (v_xlast s)
               end in
      let (b, r) := sfa_stop dim solver (v_sfa s) debug in
      (mkVS b (v_accs s) (v_tlen s) (v_dtlen s) (v_tchunk s) (v_xlast s), r).
  (** _execute mdp/nodes/sfa_nodes.py:320-339 *)
  Definition v_execute (s : vsfa) (n : option Z) (x : vec) : list K := sfa_execute dim (v_sfa s) n x.
End VSFA.
Arguments VOk {T}. Arguments VErr {T}. Arguments VRaise {T}.
Arguments INone {K}.

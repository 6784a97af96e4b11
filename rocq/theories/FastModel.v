(** Model of FastICANode of mdp/nodes/ica_nodes.py, with exact real arithmetic, and of the arguments of TDSEPNode.

    Vectors are functions of the component, matrices functions of row and column, as in ICAModel.v.  dtypes, verbose output and the attributes convergence and
    convergence_fine are not modelled (the last convergence, which core returns, is modelled for the symmetric approach).  Dividing by zero (nan in numpy) leaves the
    model: the result is then None. *)
From Coq Require Import Reals List Arith ZArith Bool.
From Verif Require Import CovModel ICAModel.
Import ListNotations.
Open Scope R_scope.

Definition rvec := nat -> R.
Definition dot (d : nat) (a b : rvec) : R := rsum d (fun k => a k * b k).
(** utils.norm2 (mdp/utils/routines.py:206-210) *)
Definition norm2 (d : nat) (a : rvec) : R := sqrt (dot d a a).
Definition vplus (a b : rvec) : rvec := fun k => a k + b k.
Definition vminus (a b : rvec) : rvec := fun k => a k - b k.
Definition vzero : rvec := fun _ => 0.
(** w /= utils.norm2(w); None: the norm is zero *)
Definition unit_ (d : nat) (w : rvec) : option rvec := if Req_EM_T (norm2 d w) 0 then None else Some (fun k => w k / norm2 d w).
Definition col (q : rmat) (j : nat) : rvec := fun a => q a j.

(** ** The codes of the nonlinearities :565-596 *)
Inductive nonlin := Pow3 | Tanh | Gaus | Skew.
Definition nl_code (g : nonlin) : nat := match g with Pow3 => 10 | Tanh => 20 | Gaus => 30 | Skew => 40 end.
Definition Reqb (a b : R) : bool := if Req_EM_T a b then true else false.
(** the arguments of the constructor :474-503; [c_all]: sample_size == 1 *)
Record fcfg := mkFC { c_g : nonlin; c_fine : option nonlin; c_all : bool; c_mu : R; c_max_it : nat; c_max_it_fine : nat; c_failures : nat; c_limit : R; c_coarse : option R }.
Definition g_orig (c : fcfg) : nat := (nl_code (c_g c) + (if c_all c then 0 else 2) + (if Reqb (c_mu c) 1 then 0 else 1))%nat.
Definition g_fine (c : fcfg) : nat :=
  match c_fine c with Some g => (nl_code g + 1)%nat | None => if Reqb (c_mu c) 1 then (g_orig c + 1)%nat else g_orig c end.
Definition fine_tuning (c : fcfg) : bool := match c_fine c with Some _ => true | None => false end.
(** :496, :589-594 *)
Definition stabilization (c : fcfg) : bool := negb (Reqb (c_mu c) 1) || (if fine_tuning c then false else negb (Reqb (c_mu c) 1)).
Definition muK : R := 1 / 100.
(** the branches if used_g == 10 ... elif used_g == 43 *)
Definition known (g : nat) : bool := existsb (Nat.eqb g) [10; 11; 12; 13; 20; 21; 22; 23; 30; 31; 32; 33; 40; 41; 42; 43]%nat.
(** self.g != self.fine_g :629 *)
Definition nl_eqb (a b : nonlin) : bool := (nl_code a =? nl_code b)%nat.
Definition g_differs (c : fcfg) : bool := match c_fine c with Some g => negb (nl_eqb (c_g c) g) | None => true end.
(** exceptions: no convergence, nonlinearity not found, too many failures, the inverse of a singular matrix *)
Inductive fexn := FNoConv | FNotFound | FTooMany | FLinAlg.

(** the step size :651-670, :886-908: [fineconv] is convergence_fine < limit, [long] that half of the iterations are over; (mu, stroke, lng, used_g) *)
Definition up (g : nat) : nat := if Nat.even g then S g else g.
Definition stabilise (fineconv long : bool) (s : R * R * bool * nat) : R * R * bool * nat :=
  let '(mu, stroke, lng, g) := s in
  if Reqb stroke 0 && fineconv then (/ 2 * mu, mu, lng, up g)
  else if negb (Reqb stroke 0) then (stroke, 0, lng, if Reqb stroke 1 && negb (Nat.even g) then (g - 1)%nat else g)
  else if negb lng && long then (/ 2 * mu, stroke, true, up g)
  else s.

(** ** The symmetric approach :603-802 *)
Section Symm.
  Variables (d : nat) (c : fcfg).
  (** utils.sqrtm(utils.inv(m)); None: LinAlgError *)
  Variable isqrt : rmat -> option rmat.
  (** the new Q for the code, the step size and Q, in the given round (the random choice of the samples) *)
  Variable upd : nat -> R -> nat -> rmat -> rmat.
  Fixpoint minn (n : nat) (f : nat -> R) : R := match n with O => f O | S n => Rmin (minn n f) (f (S n)) end.
  (** 1.-abs(mult(Q.T, QOld).diagonal()).min() :624-626 *)
  Definition conv_s (q qo : rmat) : R := 1 - minn (d - 1) (fun j => Rabs (dot d (col q j) (col qo j))).
  Record sst := mkSS { s_q : rmat; s_qo : rmat; s_qof : rmat; s_mu : R; s_g : nat; s_stroke : R; s_fine : bool; s_cr : bool; s_lng : bool }.
  Definition zmat : rmat := fun _ _ => 0.
  Definition s_start (guess : rmat) : sst := mkSS guess zmat zmat (c_mu c) (g_orig c) 0 false false false.
  (** what happens after the symmetric orthogonalization :629-673, Q is [q]; inr: the loop is left, with the convergence *)
  Definition s_control (round : nat) (q : rmat) (s : sst) : sst + R :=
    let v1 := conv_s q (s_qo s) in let v2 := conv_s q (s_qof s) in
    let coarse := g_differs c && (match c_coarse c with Some l => Rltb v1 l | None => false end) && negb (s_cr s) in
    let g := if coarse then g_fine c else s_g s in
    let cr := s_cr s || coarse in
    let lim := Rltb v1 (c_limit c) in
    if lim && negb (fine_tuning c && negb (s_fine s)) then inr v1
    else
      let '(fine, g, mu, qo) := if lim then (true, g_fine c, muK * c_mu c, zmat) else (s_fine s, g, s_mu s, s_qo s) in
      let '(mu, stroke, lng, g) :=
        if stabilization c then stabilise (Rltb v2 (c_limit c)) (c_max_it c / 2 <? round)%nat (mu, s_stroke s, s_lng s, g) else (mu, s_stroke s, s_lng s, g) in
      inl (mkSS q q qo mu g stroke fine cr lng).
  (** the loop :613-798: [todo] rounds are left before 'No convergence'; filters and convergence *)
  Fixpoint symm (todo round : nat) (s : sst) : rmat * R + fexn :=
    match todo with
    | O => inr FNoConv
    | S todo =>
        match isqrt (mult d (transp (s_q s)) (s_q s)) with
        | None => inr FLinAlg
        | Some m =>
            let q := mult d (s_q s) m in
            match s_control round q s with
            | inr v => inl (q, v)
            | inl s' => if known (s_g s') then symm todo (S round) (mkSS (upd (s_g s') (s_mu s') round q) (s_qo s') (s_qof s') (s_mu s') (s_g s') (s_stroke s') (s_fine s') (s_cr s') (s_lng s'))
                        else inr FNotFound
            end
        end
    end.
  Definition symm_core (guess : rmat) : rmat * R + fexn := symm (c_max_it c) 0 (s_start guess).
End Symm.

(** ** The deflation approach :803-1020 *)
Section Defl.
  Variables (d : nat) (c : fcfg).
  (** the new w before it is normalized, for the code, the step size and w, in the [k]th update (the random choice of the samples) *)
  Variable upd : nat -> R -> nat -> rvec -> rvec.
  (** w - mult(mult(Q, Q.T), w) *)
  Definition deflate (q : rmat) (w : rvec) : rvec := fun a => w a - rsum d (fun b => rsum d (fun k => q a k * q b k) * w b).
  Record dst := mkDS { d_w : rvec; d_wo : rvec; d_wof : rvec; d_mu : R; d_g : nat; d_stroke : R; d_fine : bool; d_lng : bool; d_end : nat; d_gabba : nat; d_i : nat; d_k : nat }.
  (** how the inner loop ends: convergence with w; no convergence :841-855; the condition of the loop is false; a nonlinearity is not found; division by zero *)
  Inductive dout := DConv (w : rvec) (k : nat) | DFail (k : nat) | DOver (k : nat) | DNotFound | DNan.
  Definition conv_d (w wo : rvec) : R := Rmin (norm2 d (vminus w wo)) (norm2 d (vplus w wo)).
  (** the inner loop :833-1014; None: more than [fuel] iterations *)
  Fixpoint inner (fuel : nat) (q : rmat) (s : dst) : option dout :=
    match fuel with
    | O => None
    | S fuel =>
        if (d_i s <=? c_max_it c + d_gabba s)%nat then
          match unit_ d (deflate q (d_w s)) with
          | None => Some DNan
          | Some w =>
              if negb (d_fine s) && (d_i s =? c_max_it c + 1)%nat then Some (DFail (d_k s))
              else
                let wo := if d_fine s && (d_end s <=? d_i s)%nat then w else d_wo s in
                let lim := Rltb (conv_d w wo) (c_limit c) in
                if lim && negb (fine_tuning c && negb (d_fine s)) then Some (DConv w (d_k s))
                else
                  let '(fine, gabba, wo, wof, g, mu, en) :=
                    if lim then (true, c_max_it_fine c, vzero, vzero, g_fine c, muK * c_mu c, (c_max_it_fine c + d_i s)%nat)
                    else (d_fine s, d_gabba s, wo, d_wof s, d_g s, d_mu s, d_end s) in
                  let '(mu, stroke, lng, g) :=
                    if negb lim && stabilization c
                    then stabilise (Rltb (conv_d w wof) (c_limit c)) (c_max_it c / 2 <? d_i s)%nat (mu, d_stroke s, d_lng s, g) else (mu, d_stroke s, d_lng s, g) in
                  if known g then
                    match unit_ d (upd g mu (d_k s) w) with
                    | None => Some DNan
                    | Some w' => inner fuel q (mkDS w' w wo mu g stroke fine lng en gabba (S (d_i s)) (S (d_k s)))
                    end
                  else Some DNotFound
          end
        else Some (DOver (d_k s))
    end.
  Definition set_col (q : rmat) (j : nat) (w : rvec) : rmat := fun a b => if (b =? j)%nat then w a else q a b.
  Definition d_fuel : nat := (c_max_it c + c_max_it_fine c + 3)%nat.
  (** a component :814-832; the starting vector is a view of the column of guess, which is thereby changed *)
  Definition component (q guess : rmat) (r k : nat) : rmat * option dout :=
    match unit_ d (deflate q (col guess r)) with
    | None => (guess, Some DNan)
    | Some w => (set_col guess r w, inner d_fuel q (mkDS w vzero vzero (c_mu c) (g_orig c) 0 false false 0 1 1 k))
    end.
  Inductive dres := DDone (q : rmat) (converged : list bool) | DExn (e : fexn) | DOut.
  (** while round < comp :813-1016; DOut: division by zero, or not enough fuel.  The second part is guess after the call *)
  Fixpoint defl (todo r : nat) (q guess : rmat) (nfail k : nat) (flags : list bool) : dres * rmat :=
    match todo with
    | O => (DDone q flags, guess)
    | S todo =>
        match component q guess r k with
        | (guess, Some (DConv w k)) => defl todo (S r) (set_col q r w) guess 0 k (flags ++ [true])
        | (guess, Some (DFail k)) =>
            if (r =? 0)%nat then (DExn FNoConv, guess)
            else if (c_failures c <? S nfail)%nat then (DExn FTooMany, guess)
            else defl todo (S r) q guess (S nfail) k (flags ++ [false])
        | (guess, Some (DOver k)) => defl todo (S r) q guess nfail k (flags ++ [false])
        | (guess, Some DNotFound) => (DExn FNotFound, guess)
        | (guess, _) => (DOut, guess)
        end
    end.
  Definition defl_core (guess : rmat) : dres * rmat := defl d 0 zmat guess 0 0 [].
End Defl.

(** ** The nonlinearities; [x] are the n data points (all, or the samples of the iteration) with d components *)
Section Update.
  Variables (d n : nat) (x : rmat) (ft fg : R).
  (** u = mult(X.T, w) *)
  Definition u_ (w : rvec) : rvec := fun t => rsum d (fun a => x t a * w a).
  (** mult(X, v) *)
  Definition xm (v : rvec) : rvec := fun a => rsum n (fun t => x t a * v t).
  Definition gaus_ (u : rvec) : rvec := fun t => u t * exp (- fg * (u t * u t) * / 2).
  Definition dgaus_ (u : rvec) : rvec := fun t => (1 - fg * (u t * u t)) * exp (- fg * (u t * u t) * / 2).
  Definition tang_ (u : rvec) : rvec := fun t => tanh (ft * u t).
  (** the even codes of the deflation approach :912-914, :930-934, :955-961, :990-992; codes 12, 22, 32 and 42 are the same with the samples *)
  Definition d_plain (g : nonlin) (w : rvec) : rvec :=
    let u := u_ w in
    match g with
    | Pow3 => fun a => xm (fun t => u t * u t * u t) a / INR n - 3 * w a
    | Tanh => let tang := tang_ u in fun a => (xm tang a - ft * (rsum n (fun t => 1 - tang t * tang t) * w a)) / INR n
    | Gaus => fun a => (xm (gaus_ u) a - rsum n (dgaus_ u) * w a) / INR n
    | Skew => fun a => xm (fun t => u t * u t) a / INR n
    end.
  (** the odd codes :915-919, :935-940, :962-970, :993-997 *)
  Definition d_stab (g : nonlin) (mu : R) (w : rvec) : rvec :=
    let u := u_ w in
    match g with
    | Pow3 => let e := fun a => xm (fun t => u t * u t * u t) a / INR n in let beta := dot d w e in fun a => w a - mu * (e a - beta * w a) / (3 - beta)
    | Tanh => let tang := tang_ u in let beta := dot n u tang in
              fun a => w a - mu * ((xm tang a - beta * w a) / (ft * rsum n (fun t => 1 - tang t * tang t) - beta))
    | Gaus => let beta := dot n u (gaus_ u) in fun a => w a - mu * ((xm (gaus_ u) a - beta * w a) / (rsum n (dgaus_ u) - beta))
    | Skew => let e := fun a => xm (fun t => u t * u t) a / INR n in let beta := dot d w e in fun a => w a - mu * (e a - beta * w a) / (- beta)
    end.
  (** the symmetric approach: u = mult(X.T, Q) has a column for each column of Q.  The even codes :685-687, :707-711, :737-743, :774-776 *)
  Definition us (q : rmat) (j : nat) : rvec := u_ (col q j).
  Definition s_plain (g : nonlin) (q : rmat) : rmat := fun a j =>
    let u := us q j in
    match g with
    | Pow3 => xm (fun t => u t * u t * u t) a / INR n - 3 * q a j
    | Tanh => let tang := tang_ u in xm tang a / INR n - rsum n (fun t => 1 - tang t * tang t) / INR n * q a j * ft
    | Gaus => (xm (gaus_ u) a - rsum n (dgaus_ u) * q a j) / INR n
    | Skew => xm (fun t => u t * u t) a / INR n
    end.
  (** G and the number subtracted from Beta *)
  Definition s_fun (g : nonlin) (u : rvec) : rvec :=
    match g with Pow3 => fun t => u t * u t * u t | Tanh => tang_ u | Gaus => gaus_ u | Skew => fun t => u t * u t end.
  Definition s_den (g : nonlin) (u : rvec) : R :=
    match g with Pow3 => 3 * INR n | Tanh => ft * rsum n (fun t => 1 - tang_ u t * tang_ u t) | Gaus => rsum n (dgaus_ u) | Skew => 0 end.
  (** Q + mu * mult(Q, mult(mult(u.T, G) - diag(Beta), D)), D = diag(1/(Beta - ...)) :688-694, :712-720, :744-754, :777-783 *)
  Definition s_stab (g : nonlin) (mu : R) (q : rmat) : rmat := fun a j =>
    let beta := fun j => dot n (us q j) (s_fun g (us q j)) in
    q a j + mu * rsum d (fun k => q a k * ((dot n (us q k) (s_fun g (us q j)) - (if (k =? j)%nat then beta j else 0)) * (1 / (beta j - s_den g (us q j))))).
  (** the branch for a code *)
  Definition nl_of (g : nat) : nonlin := match (g / 10)%nat with 1%nat => Pow3 | 2%nat => Tanh | 3%nat => Gaus | _ => Skew end.
  Definition d_upd (g : nat) (mu : R) (w : rvec) : rvec := if Nat.even g then d_plain (nl_of g) w else d_stab (nl_of g) mu w.
  Definition s_upd (g : nat) (mu : R) (q : rmat) : rmat := if Nat.even g then s_plain (nl_of g) q else s_stab (nl_of g) mu q.
End Update.

(** ** guess :549-553: [white] is get_recmatrix(transposed=1) of the whitening node, None if whitened *)
Definition start_guess (d : nat) (guess : rmat) (white : option rmat) : rmat := match white with None => guess | Some r => mult d guess r end.

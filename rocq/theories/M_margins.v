(** * Model of simulation/Stability Analysis.py *)
From Coq Require Import Reals List.
From Verif Require Import Num Vec M_struct M_lqr.
Import ListNotations.
Local Open Scope R_scope.

(** Stability Analysis.py:22-28: what axis_margins takes from axis [i]: Kq_i, Kw_i, Jinv_ii, and the numerator [a; b] of its open
    loop L_i(s) = (a s + b) / s^2; the denominator is constant. *)
Record axis_loop := mkaxis { ax_kq : R; ax_kw : R; ax_ji : R; ax_num : list R }.
Definition axis_entry (Jinv Kq Kw : m3) (pick : m3 -> R) : axis_loop :=
  let Kq_i := pick Kq in
  let Kw_i := pick Kw in
  let Jinv_ii := pick Jinv in
  mkaxis Kq_i Kw_i Jinv_ii [Jinv_ii * Kw_i; 0.5 * Jinv_ii * Kq_i].
(** ct.pade(T, n) of the python-control library, its published algorithm: the coefficients c_0 = 1,
    c_k = c_(k-1) t (n-k+1) / (2n-k+1) / k of both polynomials (t = -T above, T below), highest power first, both divided by the
    leading coefficient of the denominator.  [pade_from] runs k upwards from [k] with [m] more to come. *)
Fixpoint pade_from (t : R) (n : nat) (c : R) (k m : nat) : list R :=
  match m with
  | O => [c]
  | S m' => c :: pade_from t n (c * (t * INR (n - k) / INR (2 * n - k) / INR (S k))) (S k) m'
  end.
Definition pade (T : R) (n : nat) : list R * list R :=
  let num := rev (pade_from (- T) n 1 0 n) in
  let den := rev (pade_from T n 1 0 n) in
  let lead := hd 0 den in
  (map (fun c => c / lead) num, map (fun c => c / lead) den).
(** the product of transfer functions multiplies numerators and denominators: polynomial products, highest power first *)
Fixpoint padd (p q : list R) : list R :=
  match p, q with [], _ => q | _, [] => p | a :: p, b :: q => a + b :: padd p q end.
Fixpoint conv (p q : list R) : list R := match p with [] => [] | a :: p => padd (map (Rmult a) q) (0 :: conv p q) end.
Definition pmul (p q : list R) : list R := rev (conv (rev p) (rev q)).
(** Stability Analysis.py:26-34: the open loop handed to ct.margin, with the optional delay ([if delay_s and delay_s > 0]) *)
Definition axis_tf (delay_s : option R) (num : list R) : list R * list R :=
  let den := [1; 0; 0] in
  match delay_s with
  | Some d => if Rltb 0 d then let '(num_d, den_d) := pade d 4 in (pmul num num_d, pmul den den_d) else (num, den)
  | None => (num, den)
  end.
(** Stability Analysis.py:5-43 [axis_margins]: the three axes in turn, handed to [margin] (ct.margin of the python-control
    library), whose result is stored with them. *)
Definition axis_margins {A} (margin : list R -> list R -> A) (delay_s : option R) (J : m3) (K : M36) : res (list (axis_loop * A)) :=
  if Reqb (det3 J) 0 then Raise LinAlgError
  else let Jinv := inv3 J in
       let picks : list (m3 -> R) := [(fun m => x3 (row1 m)); (fun m => y3 (row2 m)); (fun m => z3 (row3 m))] in
       Ok (map (fun pick => let l := axis_entry Jinv (k1 K) (k2 K) pick in let '(num, den) := axis_tf delay_s (ax_num l) in (l, margin num den)) picks).

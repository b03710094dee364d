(** Proofs about the instanton configuration. *)
From Coq Require Import Lia Lra.
From Verif Require Import CInt GeomModel GeomSpec GeomProofs Cplx CMat Det Arr MatModel MatSpec MatProofs ProjModel ProjProofs ExpModel ExpSpec ExpProofs ExpProofs2 FieldModel FieldProofs BpstModel.
Import ListNotations.
Local Open Scope R_scope.

(** * Specification *)
(** v is the integral of f from 0 to 1 *)
Definition integral01 (f : R -> R) (v : R) : Prop := exists F, (forall t, derivable_pt_lim F t (f t)) /\ v = F 1 - F 0.
(** the square of the distance of y + t e_mu from the origin *)
Definition dist2 (y : nat -> R) (mu : nat) (t : R) : R :=
  (if Nat.eqb 0 mu then (y 0%nat + t) * (y 0%nat + t) else y 0%nat * y 0%nat) + (if Nat.eqb 1 mu then (y 1%nat + t) * (y 1%nat + t) else y 1%nat * y 1%nat) +
  (if Nat.eqb 2 mu then (y 2%nat + t) * (y 2%nat + t) else y 2%nat * y 2%nat) + (if Nat.eqb 3 mu then (y 3%nat + t) * (y 3%nat + t) else y 3%nat * y 3%nat).
(** the profile of the instanton in singular gauge, 1/y^2 - 1/(y^2 + rho^2) = rho^2 / (y^2 (y^2 + rho^2)) *)
Definition profile (r : R) (y : nat -> R) (mu : nat) (t : R) : R := r * r / (dist2 y mu t * (dist2 y mu t + r * r)).
(** the square of the distance from the line along mu *)
Definition away2 (y : nat -> R) (mu : nat) : R := dist2 y mu (- y mu).

Lemma away_dist y mu t : (mu < 4)%nat -> dist2 y mu t = (y mu + t) * (y mu + t) + away2 y mu.
Proof. intro H. unfold away2, dist2. destruct mu as [|[|[|[|mu]]]]; try lia; cbn [Nat.eqb]; ring. Qed.
Lemma away_nonneg y mu : (mu < 4)%nat -> 0 <= away2 y mu.
Proof. intro H. unfold away2, dist2. destruct mu as [|[|[|[|mu]]]]; try lia; cbn [Nat.eqb]; nra. Qed.
(** the sum of the components other than mu *)
Definition others (y : nat -> R) (mu : nat) : R := y 0%nat + y 1%nat + y 2%nat + y 3%nat - y mu.
Lemma Asing_eq y r mu : (mu < 4)%nat -> let s := sqrt (away2 y mu + r * r) in
  Asing y r mu = atan2 s (away2 y mu + r * r + y mu * y mu + y mu + others y mu) / s.
Proof.
  intro H. cbv zeta. unfold Asing, others. cbn [seq fold_left]. destruct mu as [|[|[|[|mu]]]]; try lia; cbn [Nat.eqb]; unfold away2, dist2; cbn [Nat.eqb];
  match goal with |- atan2 (sqrt ?a) ?b / sqrt ?c = atan2 (sqrt ?d) ?e / sqrt ?f => replace a with d by ring; replace c with d by ring; replace f with d by ring; replace b with e by ring; reflexivity end.
Qed.
Lemma atan2_pos s q : 0 < s -> 0 < atan2 s q < PI /\ sqrt (q * q + s * s) * cos (atan2 s q) = q /\ sqrt (q * q + s * s) * sin (atan2 s q) = s.
Proof.
  intro Hs. unfold atan2. pose proof (carg_spec (q, s)) as E. unfold norm2 in E. cbn [re im fst snd] in E.
  injection E as E1 E2. cbn [re im fst snd] in E1, E2.
  assert (Hr : 0 < sqrt (q * q + s * s)) by (apply sqrt_lt_R0; nra).
  assert (B : 0 <= carg (q, s) <= PI).
  { unfold carg. cbn [re im fst snd]. destruct (Req_EM_T _ _) as [Z|_]; [unfold norm2 in Z; cbn [re im fst snd] in Z; nra|]. destruct (Rle_dec 0 s); [|lra]. apply acos_bound. }
  assert (Cs : sqrt (q * q + s * s) * cos (carg (q, s)) = q) by lra.
  assert (Sn : sqrt (q * q + s * s) * sin (carg (q, s)) = s) by lra.
  split; [|split; assumption]. split.
  - destruct (Req_dec (carg (q, s)) 0) as [Z|]; [rewrite Z, sin_0 in Sn; lra|lra].
  - destruct (Req_dec (carg (q, s)) PI) as [Z|]; [rewrite Z, sin_PI in Sn; lra|lra].
Qed.
(** the angle under which the link is seen *)
Lemma atan_diff a s : 0 < s -> atan2 s (s * s + a * a + a) = atan ((a + 1) / s) - atan (a / s).
Proof.
  intro Hs. set (q := s * s + a * a + a). destruct (atan2_pos s q Hs) as (B & Cs & Sn). set (th := atan2 s q) in *. set (p := atan ((a + 1) / s)). set (m := atan (a / s)).
  pose proof (atan_bound ((a + 1) / s)) as Bp. pose proof (atan_bound (a / s)) as Bm. fold p in Bp. fold m in Bm.
  assert (M : m < p). { apply atan_increasing. apply Rmult_lt_compat_r; [now apply Rinv_0_lt_compat|lra]. }
  assert (Cp : 0 < cos p) by (apply cos_gt_0; lra). assert (Cm : 0 < cos m) by (apply cos_gt_0; lra).
  assert (Sp : sin p = cos p * ((a + 1) / s)). { pose proof (tan_atan ((a + 1) / s)) as T. fold p in T. unfold tan in T. rewrite <- T at 1. field. lra. }
  assert (Sm : sin m = cos m * (a / s)). { pose proof (tan_atan (a / s)) as T. fold m in T. unfold tan in T. rewrite <- T at 1. field. lra. }
  assert (D : sin (th - (p - m)) = 0).
  { rewrite sin_minus, (sin_minus p m), (cos_minus p m), Sp, Sm. set (h := sqrt (q * q + s * s)) in *. assert (Hh : 0 < h) by (apply sqrt_lt_R0; nra).
    apply (Rmult_eq_reg_l h); [|lra]. rewrite Rmult_0_r.
    transitivity ((h * sin th) * (cos p * cos m + cos p * ((a + 1) / s) * (cos m * (a / s))) - (h * cos th) * (cos p * ((a + 1) / s) * cos m - cos p * (cos m * (a / s)))); [ring|].
    rewrite Sn, Cs. unfold q. field. lra. }
  assert (R : - PI < th - (p - m) < PI) by lra. 
  destruct (Rtotal_order (th - (p - m)) 0) as [L|[E|G]]; [|lra|].
  - exfalso. assert (0 < sin (- (th - (p - m)))) by (apply sin_gt_0; lra). rewrite sin_neg in H. lra.
  - exfalso. assert (0 < sin (th - (p - m))) by (apply sin_gt_0; lra). lra.
Qed.
Lemma primitive a s : 0 < s -> forall t, derivable_pt_lim (fun t => atan ((a + t) / s) / s) t (/ ((a + t) * (a + t) + s * s)).
Proof.
  intros Hs t.
  assert (L : derivable_pt_lim (fun t => (a + t) / s) t (/ s)).
  { replace (/ s) with ((0 + 1) * / s + (a + t) * 0) by (field; lra). apply (derivable_pt_lim_mult (fun t => a + t) (fun _ => / s)); [|apply derivable_pt_lim_const]. apply (derivable_pt_lim_plus (fun _ => a) (fun t => t)); [apply derivable_pt_lim_const|apply derivable_pt_lim_id]. }
  pose proof (derivable_pt_lim_comp _ atan t _ _ L (derivable_pt_lim_atan ((a + t) / s))) as D.
  pose proof (derivable_pt_lim_mult _ (fun _ => / s) t _ _ D (derivable_pt_lim_const (/ s) t)) as E.
  match type of E with derivable_pt_lim _ _ ?v => replace (/ ((a + t) * (a + t) + s * s)) with v end; [exact E|].
  clear D E L. assert (0 < s * s) by (now apply Rmult_lt_0_compat). pose proof (Rle_0_sqr (a + t)) as Q. unfold Rsqr in *. unfold comp. field. repeat split; try lra; apply Rgt_not_eq; nra.
Qed.
Lemma Asing_right y r mu : (mu < 4)%nat -> 0 < away2 y mu + r * r -> others y mu = 0 -> integral01 (fun t => / (dist2 y mu t + r * r)) (Asing y r mu).
Proof.
  intros H Hs Ho. rewrite Asing_eq, Ho by exact H. set (s := sqrt (away2 y mu + r * r)). assert (P : 0 < s) by now apply sqrt_lt_R0. assert (S2 : s * s = away2 y mu + r * r) by (apply sqrt_sqrt; lra).
  exists (fun t => atan ((y mu + t) / s) / s). split.
  - intro t. rewrite away_dist by exact H. replace ((y mu + t) * (y mu + t) + away2 y mu + r * r) with ((y mu + t) * (y mu + t) + s * s) by lra. now apply primitive.
  - rewrite <- S2, Rplus_0_r, atan_diff by exact P. rewrite Rplus_0_r. field. lra.
Qed.
Lemma integral_minus f g u v : integral01 f u -> integral01 g v -> integral01 (fun t => f t - g t) (u - v).
Proof. intros (F & DF & ->) (G & DG & ->). exists (fun t => F t - G t). split; [intro t; now apply (derivable_pt_lim_minus F G)|lra]. Qed.
Lemma integral_ext f g u : (forall t, f t = g t) -> integral01 f u -> integral01 g u.
Proof. intros E (F & D & ->). exists F. split; [intro t; rewrite <- E; apply D|reflexivity]. Qed.
Lemma coefficient_right y mu : (mu < 4)%nat -> 0 < away2 y mu -> others y mu = 0 -> integral01 (profile rho y mu) (coefficient y mu).
Proof.
  intros H Ha Ho. unfold coefficient. eapply integral_ext; [|apply integral_minus; apply Asing_right; [exact H|nra|exact Ho|exact H|unfold rho; lra|exact Ho]].
  intro t. cbv beta. unfold profile. rewrite away_dist by exact H. pose proof (Rle_0_sqr (y mu + t)) as Q. unfold Rsqr in Q. unfold rho. field. split; apply Rgt_not_eq; nra.
Qed.


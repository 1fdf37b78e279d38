(** Relative errors, for BinomialTest in binary64. *)
From Coq Require Import Lia Psatz.
From Flocq Require Import Core Relative.
From Verif Require Import FloatModel FloatProofs FloatBinomial.
Open Scope R_scope.

Lemma u_small : u <= / 9007199254740992.
Proof. unfold u. apply Req_le. reflexivity. Qed.
Lemma b64_rel : forall x, u * u <= Rabs x -> Rabs (b64 x - x) <= u * Rabs x.
Proof.
  intros x H. unfold b64. assert (K := relative_error_N_FLT radix2 (-1074) 53 prec64 (fun x => negb (Z.even x)) x).
  eapply Rle_trans; [apply K|].
  - apply Rle_trans with (u * u); [|exact H]. rewrite u_bpow, <- bpow_plus. apply bpow_le. lia.
  - replace u with (/ 2 * bpow radix2 (- (53) + 1)); [apply Req_le; ring|unfold u; cbn; lra].
Qed.
(** [y] approximates the positive [x] with the relative error [k * u]. *)
Definition near (k x y : R) : Prop := 0 < x /\ 0 <= k <= 67108864 /\ Rabs (y - x) <= k * u * x.
Lemma ku_small : forall k, 0 <= k <= 67108864 -> 0 <= k * u <= / 134217728.
Proof. intros k H. pose proof u_pos. pose proof u_small. split; [nra|]. apply Rle_trans with (67108864 * / 9007199254740992); [|lra]. apply Rmult_le_compat; lra. Qed.
Lemma near_bounds : forall k x y, near k x y -> x * (1 - / 134217728) <= y <= x * (1 + / 134217728).
Proof. intros k x y (P & K & E). apply abs_inv in E. pose proof (ku_small k K). nra. Qed.
Lemma near_pos : forall k x y, near k x y -> 0 < y /\ x / 2 <= y <= 2 * x.
Proof. intros k x y N. pose proof (near_bounds _ _ _ N). destruct N as (P & _ & _). lra. Qed.
Lemma near_refl : forall x, 0 < x -> near 0 x x.
Proof. intros x P. split; [auto|]. split; [lra|]. replace (x - x) with 0 by ring. rewrite Rabs_R0. lra. Qed.
Lemma near_weaken : forall k l x y, near k x y -> k <= l <= 67108864 -> near l x y.
Proof. intros k l x y (P & K & E) L. split; [auto|]. split; [lra|]. pose proof u_pos. eapply Rle_trans; [exact E|]. apply Rmult_le_compat_r; [lra|]. apply Rmult_le_compat_r; lra. Qed.
Lemma near_round0 : forall x, 0 < x -> u * u <= x -> near 1 x (b64 x).
Proof. intros x P L. split; [auto|]. split; [lra|]. rewrite Rmult_1_l. rewrite <- (Rabs_pos_eq x) at 3 by lra. apply b64_rel. rewrite Rabs_pos_eq; lra. Qed.
Lemma near_round : forall k x y, near k x y -> u * u <= y -> k <= 67108862 -> near (k + 2) x (b64 y).
Proof.
  intros k x y N L K2. destruct (near_pos _ _ _ N) as (Py & _ & By). destruct N as (P & K & E). split; [auto|]. split; [lra|].
  assert (R := b64_rel y). rewrite (Rabs_pos_eq y) in R by lra. specialize (R L). apply abs_inv in R, E. apply abs_le. pose proof u_pos. nra.
Qed.
Lemma near_mul : forall k l x y z t, near k x y -> near l z t -> k + l + 1 <= 67108864 -> near (k + l + 1) (x * z) (y * t).
Proof.
  intros k l x y z t (P & K & E) (P' & K' & E') M. split; [nra|]. split; [lra|].
  replace (y * t - x * z) with ((y - x) * (t - z) + (y - x) * z + x * (t - z)) by ring.
  pose proof u_pos as U. pose proof (ku_small k K) as A. pose proof (ku_small l K') as B. pose proof u_small as US.
  assert (X1 : Rabs ((y - x) * (t - z)) <= (k * u * x) * (l * u * z)) by (apply prod_bound; auto).
  assert (X2 : Rabs ((y - x) * z) <= (k * u * x) * z) by (apply prod_bound; auto; rewrite Rabs_pos_eq; lra).
  assert (X3 : Rabs (x * (t - z)) <= x * (l * u * z)) by (apply prod_bound; auto; rewrite Rabs_pos_eq; lra).
  assert (X4 : (k * u) * (l * u) <= u).
  { assert (Y : k * l * u <= 1).
    { apply Rle_trans with (67108864 * 67108864 * / 9007199254740992); [|lra]. apply Rmult_le_compat; [nra|lra| |lra]. apply Rmult_le_compat; lra. }
    nra. }
  assert (X5 : 0 < x * z) by nra. apply abs_inv in X1, X2, X3. apply abs_le.
  assert (X6 : (k * u * x) * (l * u * z) <= u * (x * z)) by nra. nra.
Qed.
Lemma near_inv : forall k x y, near k x y -> k <= 67108863 -> near (k + 1) (/ x) (/ y).
Proof.
  intros k x y N K2. destruct (near_pos _ _ _ N) as (Py & _). pose proof (near_bounds _ _ _ N) as B. destruct N as (P & K & E).
  split; [apply Rinv_0_lt_compat; auto|]. split; [lra|]. replace (/ y - / x) with ((x - y) * / (y * x)) by (field; lra).
  assert (I : 0 < / (y * x)) by (apply Rinv_0_lt_compat; nra). rewrite Rabs_mult, (Rabs_pos_eq (/ (y * x))) by lra. rewrite Rabs_minus_sym.
  apply Rle_trans with (k * u * x * / (y * x)); [apply Rmult_le_compat_r; lra|].
  replace (k * u * x * / (y * x)) with (k * u * / y) by (field; lra).
  apply Rmult_le_reg_r with (y * x); [nra|]. replace (k * u * / y * (y * x)) with (k * u * x) by (field; lra). replace ((k + 1) * u * / x * (y * x)) with ((k + 1) * u * y) by (field; lra).
  pose proof u_pos as U. pose proof u_small as US. pose proof (ku_small k K) as A. apply abs_inv in E.
  assert (Y : (k + 1) * (k * u) <= 1).
  { apply Rle_trans with (67108864 * (67108864 * / 9007199254740992)); [|lra]. apply Rmult_le_compat; [lra|lra|lra|]. apply Rmult_le_compat; lra. }
  assert (Z : (k + 1) * (x - k * u * x) >= k * x) by nra. nra.
Qed.
Lemma near_sqrt : forall k x y, near k x y -> near k (sqrt x) (sqrt y).
Proof.
  intros k x y N. destruct (near_pos _ _ _ N) as (Py & _). destruct N as (P & K & E). pose proof (sqrt_lt_R0 x P) as Sx. pose proof (sqrt_lt_R0 y Py) as Sy.
  split; [auto|]. split; [auto|]. assert (Qx : sqrt x * sqrt x = x) by (apply sqrt_sqrt; lra). assert (Qy : sqrt y * sqrt y = y) by (apply sqrt_sqrt; lra). pose proof u_pos as U. pose proof (ku_small k K) as A.
  apply Rmult_le_reg_r with (sqrt x + sqrt y); [lra|]. rewrite <- (Rabs_pos_eq (sqrt x + sqrt y)) at 1 by lra. rewrite <- Rabs_mult.
  replace ((sqrt y - sqrt x) * (sqrt x + sqrt y)) with (sqrt y * sqrt y - sqrt x * sqrt x) by ring. rewrite Qx, Qy.
  eapply Rle_trans; [exact E|]. replace (k * u * sqrt x * (sqrt x + sqrt y)) with (k * u * (sqrt x * sqrt x) + k * u * sqrt x * sqrt y) by ring. rewrite Qx.
  assert (0 <= k * u * sqrt x * sqrt y) by (repeat apply Rmult_le_pos; lra). lra.
Qed.
(** A rounded multiple [d * G], [d] of any sign. *)
Lemma near_scaled : forall k F G d, near k F G -> k <= 67108862 -> u * u <= Rabs (d * G) -> exists G', b64 (d * G) = d * G' /\ near (k + 2) F G'.
Proof.
  intros k F G d N K2 L. pose proof u_pos as U. assert (D : d <> 0) by (intros ->; rewrite Rmult_0_l, Rabs_R0 in L; nra).
  destruct (near_pos _ _ _ N) as (PG & _ & BG). destruct N as (P & K & E). exists (b64 (d * G) / d). split; [field; auto|]. split; [auto|]. split; [lra|].
  assert (R := b64_rel (d * G) L). assert (Q : Rabs (b64 (d * G) / d - G) <= u * G).
  { apply Rmult_le_reg_r with (Rabs d); [apply Rabs_pos_lt; auto|]. rewrite <- Rabs_mult. replace ((b64 (d * G) / d - G) * d) with (b64 (d * G) - d * G) by (field; auto).
    eapply Rle_trans; [exact R|]. rewrite Rabs_mult, (Rabs_pos_eq G) by lra. apply Req_le. ring. }
  apply abs_inv in Q, E. apply abs_le. nra.
Qed.

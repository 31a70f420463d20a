(** Smoothing kernels: SmoothingKernel.h:95-535 with the constructors in M4Kernel.cpp:36-56,
    QuinticKernel.cpp:36-56 and GaussianKernel.cpp:37-57.
    FLOAT values are reals; [n] is the template parameter ndim.
    Simplification: decimal literals that stand for a fraction and have at least as many digits
    as a double can hold (1.333333333333333333333 and so on) are the fraction; shorter ones are written as fractions too (1.5 is 3/2); [invpi]
    (Constants.h:63, 0.31830988618379) is 1/PI.  The shorter literals of QuinticKernel::wzeta
    are kept as written. *)
From Verif Require Import Prelude Vec M_Box.
From Coq Require Import Reals.
Local Open Scope R_scope.

Definition invpi : R := / PI.

(** ** M4 kernel *)

(** M4Kernel.cpp:39. *)
Definition m4_kernrange : R := 2.
(** M4Kernel.cpp:42-53. *)
Definition m4_kernnorm (n : nat) : R :=
  match n with 1%nat => 2/3 | 2%nat => invpi * (10/7) | 3%nat => invpi | _ => 0 end.
Definition m4_kernnormdrag (n : nat) : R :=
  match n with 1%nat => 3 | 2%nat => 49/31 | 3%nat => 10/9 | _ => 0 end.

(** SmoothingKernel.h:131-140. *)
Definition m4_w0 (n : nat) (s : R) : R :=
  let kn := m4_kernnorm n in
  if rltb s 1 then kn * (1 - (3/2)*s*s + (3/4)*s*s*s)
  else if rltb s 2 then (1/4) * kn * (2 - s)^3
  else 0.
(** SmoothingKernel.h:148-158. *)
Definition m4_w1 (n : nat) (s : R) : R :=
  let kn := m4_kernnorm n in
  if rltb s 1 then kn * (-3*s + (9/4)*s*s)
  else if rltb s 2 then -(3/4) * kn * (2 - s) * (2 - s)
  else 0.
(** SmoothingKernel.h:167-182. *)
Definition m4_womega (n : nat) (s : R) : R :=
  let kn := m4_kernnorm n in let nd := INR n in
  if rltb s 1 then kn * (- nd + (3/2)*(nd + 2)*s*s - (3/4)*(nd + 3)*s^3)
  else if rltb s 2 then kn * (-2*nd + 3*(nd + 1)*s - (3/2)*(nd + 2)*s*s + (1/4)*(nd + 3)*s^3)
  else 0.
(** SmoothingKernel.h:191-202. *)
Definition m4_wzeta (s : R) : R :=
  if rltb s 1 then (7/5) - 2*s*s + (3/2)*s^4 - (3/5)*s^5
  else if rltb s 2 then (8/5) - 4*s*s + 4*s^3 - (3/2)*s^4 + (1/5)*s^5
  else 0.
(** SmoothingKernel.h:211-221. *)
Definition m4_wgrav (s : R) : R :=
  if rltb s 1 then (4/3)*s - (6/5)*s^3 + (1/2)*s^4
  else if rltb s 2 then (8/3)*s - 3*s*s + (6/5)*s^3 - (1/6)*s^4 - (1/15)/(s*s)
  else 1/(s*s).
(** SmoothingKernel.h:230-241. *)
Definition m4_wpot (s : R) : R :=
  if rltb s 1 then (7/5) - (2/3)*s*s + (3/10)*s^4 - (1/10)*s^5
  else if rltb s 2 then - (1)/(15*s) + (8/5) - (4/3)*s*s + s^3 - (3/10)*s^4 + (1/30)*s^5
  else 1/s.
(** SmoothingKernel.h:64-66 (virtual default of every kernel). *)
Definition m4_wdrag (n : nat) (q : R) : R := m4_kernnormdrag n * q * q * m4_w0 n q.

(** ** Quintic kernel *)

(** QuinticKernel.cpp:39. *)
Definition q_kernrange : R := 3.
(** QuinticKernel.cpp:42-53. *)
Definition q_kernnorm (n : nat) : R :=
  match n with 1%nat => 1/120 | 2%nat => invpi * (7/478) | 3%nat => invpi * (1/120) | _ => 0 end.
Definition q_kernnormdrag (n : nat) : R :=
  match n with 1%nat => 2 | 2%nat => 2868/2771 | 3%nat => 5/7 | _ => 0 end.

(** SmoothingKernel.h:281-294. *)
Definition q_w0 (n : nat) (s : R) : R :=
  let kn := q_kernnorm n in
  if rltb s 1 then kn * (66 - 60*s*s + 30*s^4 - 10*s^5)
  else if rltb s 2 then kn * (51 + 75*s - 210*s*s + 150*s^3 - 45*s^4 + 5*s^5)
  else if rltb s 3 then kn * (243 - 405*s + 270*s*s - 90*s^3 + 15*s^4 - s^5)
  else 0.
(** SmoothingKernel.h:302-313. *)
Definition q_w1 (n : nat) (s : R) : R :=
  let kn := q_kernnorm n in
  if rltb s 1 then kn * (-120*s + 120*s^3 - 50*s^4)
  else if rltb s 2 then kn * (75 - 420*s + 450*s*s - 180*s^3 + 25*s^4)
  else if rltb s 3 then kn * (-405 + 540*s - 270*s*s + 60*s^3 - 5*s^4)
  else 0.
(** SmoothingKernel.h:321-341. *)
Definition q_womega (n : nat) (s : R) : R :=
  let kn := q_kernnorm n in let nd := INR n in
  if rltb s 1 then kn * (-66*nd + 60*(nd + 2)*s*s - 30*(nd + 4)*s^4 + 10*(nd + 5)*s^5)
  else if rltb s 2 then
    kn * (-51*nd - 75*(nd + 1)*s + 210*(nd + 2)*s*s - 150*(nd + 3)*s^3
          + 45*(nd + 4)*s^4 - 5*(nd + 5)*s^5)
  else if rltb s 3 then
    kn * (-243*nd + 405*(nd + 1)*s - 270*(nd + 2)*s*s + 90*(nd + 3)*s^3
          - 15*(nd + 4)*s^4 + (nd + 5)*s^5)
  else 0.
(** SmoothingKernel.h:349-366. *)
Definition q_wzeta (s : R) : R :=
  if rltb s 1 then 33*s*s - 15*s^4 + 5*s^6 - (142857142857/100000000000)*s^7 - (1707142857/50000000)
  else if rltb s 2 then
    (51/2)*s*s + 25*s^3 - (105/2)*s^4 + 30*s^5 - (15/2)*s^6 + (7142857143/10000000000)*s^7 - (16892857143/500000000)
  else if rltb s 3 then
    (243/2)*s*s - 135*s^3 + (135/2)*s^4 - 18*s^5 + (5/2)*s^6 - (142857143/1000000000)*s^7 - (5207142857/100000000)
  else 0.
(** SmoothingKernel.h:374-387. *)
Definition q_wgrav (s : R) : R :=
  if rltb s 1 then (12/359) * (22*s - 12*s^3 + (30/7)*s^5 - (5/4)*s^6)
  else if rltb s 2 then
    (12/359) * (17*s + (75/4)*s*s - 42*s^3 + 25*s^4 - (45/7)*s^5 + (5/8)*s^6 + (5/56)/(s*s))
  else if rltb s 3 then
    (12/359) * (81*s - (405/4)*s^2 + 54*s^3 - 15*s^4 + (15/7)*s^5 - (1/8)*s^6 - (507/56)/(s*s))
  else 1/(s*s).
(** SmoothingKernel.h:395-408. *)
Definition q_wpot (s : R) : R :=
  if rltb s 1 then (12/359) * (-11*s*s + 3*s^4 - (5/7)*s^6 + (5/28)*s^7 + 478/14)
  else if rltb s 2 then
    (12/359) * (-(17/2)*s*s - (25/4)*s^3 + (21/2)*s^4 - 5*s^5 + (15/14)*s^6 - (5/56)*s^7
                + 473/14 + (5/56)/s)
  else if rltb s 3 then
    (12/359) * (-(81/2)*s*s + (135/4)*s^3 - (27/2)*s^4 + 3*s^5 - (5/14)*s^6 + (1/56)*s^7
                + 729/14 - (507/56)/s)
  else 1/s.
Definition q_wdrag (n : nat) (q : R) : R := q_kernnormdrag n * q * q * q_w0 n q.

(** ** Gaussian kernel *)

(** GaussianKernel.cpp:40. *)
Definition g_kernrange : R := 3.
(** GaussianKernel.cpp:43-54. *)
Definition g_kernnorm (n : nat) : R :=
  match n with 1%nat => sqrt invpi | 2%nat => invpi | 3%nat => invpi * sqrt invpi | _ => 0 end.

(** SmoothingKernel.h:451-458. *)
Definition g_w0 (n : nat) (s : R) : R :=
  if rltb s g_kernrange then g_kernnorm n * exp (- s * s) else 0.
(** SmoothingKernel.h:466-473. *)
Definition g_w1 (n : nat) (s : R) : R :=
  if rltb s g_kernrange then -2 * g_kernnorm n * s * exp (- s * s) else 0.
(** SmoothingKernel.h:481-489. *)
Definition g_womega (n : nat) (s : R) : R :=
  if rltb s g_kernrange then g_kernnorm n * (2 * s * exp (- s * s) - INR n * exp (- s * s)) else 0.
(** SmoothingKernel.h:495-502, 510-517, 525-532: both branches return 0. *)
Definition g_wzeta (s : R) : R := if rltb s g_kernrange then 0 else 0.
Definition g_wgrav (s : R) : R := if rltb s g_kernrange then 0 else 0.
Definition g_wpot (s : R) : R := if rltb s g_kernrange then 0 else 0.

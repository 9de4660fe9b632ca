(** * C98: the Legendre moments given to the library are the moments of the density and of the sampled cosines *)
From Coq Require Import Reals Lra Lia List Arith ZArith ZifyBool ZifyNat. From Coquelicot Require Import Coquelicot.
From Verif Require Import Base NumR M_Legendre M_OutE S_Legendre S_OutE S_Prob S_Mean L_Legendre L_LegBound L_LegMoment L_Prob L_ProbAngle L_ProbMean L_ProbMoment. Import ListNotations.
Local Open Scope R_scope.

(** Legendre(a): the l-th moment of pdf is a_l (1 for l = 0, and 0 beyond the moments given) *)
Theorem C98_density_moments : forall (a : list R) d l, make_leg a = Ok d -> is_RInt (fun mu => leg_pdf (lg_a d) mu * P l mu) (-1) 1 (nth l (1 :: a) 0).
Proof. exact make_moment. Qed.
Print Assumptions C98_density_moments.
(** set_moment(l, v), on any object, makes the l-th moment v and leaves the others as they were *)
Theorem C98_set_moment : forall (d : legd R) l v, l <> 0%nat -> let d' := fst (set_moment d l v) in
  is_RInt (fun mu => leg_pdf (lg_a d') mu * P l mu) (-1) 1 v /\
  forall k m, k <> l -> is_RInt (fun mu => leg_pdf (lg_a d) mu * P k mu) (-1) 1 m -> is_RInt (fun mu => leg_pdf (lg_a d') mu * P k mu) (-1) 1 m.
Proof. exact set_moment_moment. Qed.
Print Assumptions C98_set_moment.
(** no moment of a density exceeds one *)
Theorem C98_bounded : forall (a : list R), (forall mu, -1 <= mu <= 1 -> 0 <= series 0 (1 :: a) mu) -> forall c, In c a -> Rabs c <= 1.
Proof. exact moment_bound. Qed.
Print Assumptions C98_bounded.
(** the expected value of P_l of the sampled cosines is a_l; in particular the mean cosine is a_1.  The hypothesis on the
    scanned maximum says that the rejection sampler has a bound of the density. *)
Theorem C98_sampled_moments : forall (a : list R) d l, make_leg a = Ok d -> (forall mu, -1 <= mu <= 1 -> 0 <= series 0 (1 :: a) mu) ->
  (forall mu, -1 <= mu <= 1 -> series 0 (1 :: a) mu <= lg_max d) -> 0 < lg_max d -> mean (leg_sample d) (P l) (nth l (1 :: a) 0).
Proof. intros a d l M Pos B Z. exact (leg_mean a d l M Pos (legendre_density a d M Pos B Z)). Qed.
Print Assumptions C98_sampled_moments.
(** ... which it always has for at most six moments *)
Theorem C98_sampled_moments_six : forall (a : list R) d l, make_leg a = Ok d -> (forall mu, -1 <= mu <= 1 -> 0 <= series 0 (1 :: a) mu) ->
  (length a <= 6)%nat -> mean (leg_sample d) (P l) (nth l (1 :: a) 0).
Proof.
  intros a d l M Pos L. pose proof (curvature_six a L (moment_bound a Pos)) as C. destruct (leg_max_bound a d M Pos C) as [Z B]. exact (leg_mean a d l M Pos (legendre_density a d M Pos B Z)).
Qed.
Print Assumptions C98_sampled_moments_six.
(** Kalbach: the mean of the sampled cosines is r (coth a - 1/a) *)
Theorem C98_kalbach_mean : forall a r, 0 < a -> 0 <= r <= 1 -> mean (kal_mu r a) (fun mu => mu) (r * (cosh a / sinh a - 1 / a)).
Proof. exact kal_mean. Qed.
Print Assumptions C98_kalbach_mean.
(** for every sampler that follows a density (C87, C88, C95): the expected value of a Lipschitz function is its integral against the density *)
Theorem C98_mean_of_density : forall (s : rand R R) a b (f g : R -> R) L m, a < b -> has_density s a b f ->
  (forall ds v r, Forall (fun x => 0 < x < 1) ds -> s ds = Ok (v, r) -> a <= v <= b) -> (forall x, a <= x <= b -> 0 <= f x) ->
  (forall x y, a <= x <= b -> a <= y <= b -> Rabs (g x - g y) <= L * Rabs (x - y)) -> is_RInt (fun x => f x * g x) a b m -> mean s g m.
Proof. intros s a b f g L m H1 H2 H3 H4 H5 H6. exact (mean_density s a b L f g m H1 H3 H2 H4 H5 H6). Qed.
Print Assumptions C98_mean_of_density.
(** a sampler has only one mean *)
Theorem C98_mean_unique : forall (s : rand R R) g u v, mean s g u -> mean s g v -> u = v.
Proof. exact mean_unique. Qed.
Print Assumptions C98_mean_unique.
Example C98_nonvacuous : exists d : legd R, make_leg [1/4] = Ok d /\ mean (leg_sample d) (fun mu => mu) (1/4) /\ mean (leg_sample d) (P 2) 0.
Proof.
  destruct leg_example as (d & M). exists d. split; [exact M|]. assert (Pos : forall mu, -1 <= mu <= 1 -> 0 <= series 0 [1; 1/4] mu) by (intros mu H; cbn; lra).
  split; [exact (C98_sampled_moments_six [1/4] d 1 M Pos ltac:(cbn; lia))|exact (C98_sampled_moments_six [1/4] d 2 M Pos ltac:(cbn; lia))].
Qed.

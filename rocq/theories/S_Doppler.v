(** * Specification of free-gas target sampling, in physical units (mass of the neutron 1, speed^2 = energy) *)
From Coq Require Import Reals Lra Lia List.
From Verif Require Import Base NumR M_Kin S_Kin.
Import ListNotations.
Local Open Scope R_scope.

(** the reduced neutron speed and the target speed that corresponds to a reduced speed squared [x2] *)
Definition reduced (Ein kT awr : R) : R := sqrt (awr * Ein / kT).
Definition target_speed (kT awr x2 : R) : R := sqrt (x2 * kT / awr).

(** the numbers [l] drawn by one trial propose the reduced speed squared [x2] and the cosine [mu] of the angle between
    neutron and target: with probability 2 / (sqrt(pi) y + 2) the speed comes from the first density, else from the
    second one *)
Inductive svt_proposal (y : R) : list R -> R -> R -> Prop :=
| prop_first : forall xi a b m, xi < 2 / (sqrt PI * y + 2) -> svt_proposal y [xi; a; b; m] (- ln (a * b)) (2 * m - 1)
| prop_second : forall xi a b d m, 2 / (sqrt PI * y + 2) <= xi ->
    svt_proposal y [xi; a; b; d; m] (- ln b - ln d * cos (PI / 2 * a) * cos (PI / 2 * a)) (2 * m - 1).

(** law of cosines: the speed of the neutron relative to a target of speed [V] whose direction makes an angle of cosine
    [mu] with the neutron *)
Definition relative_speed (Ein V mu : R) : R := sqrt (Ein + V * V - 2 * sqrt Ein * V * mu).
(** a trial is accepted with probability (relative speed) / (sum of the speeds): [r] is the uniform number used *)
Definition svt_accepts (Ein V mu r : R) : Prop := r * (sqrt Ein + V) < relative_speed Ein V mu.

(** the first accepted trial decides; [l] is exactly the numbers consumed *)
Inductive svt_run (Ein kT awr : R) : list R -> R -> R -> Prop :=
| run_accept : forall l r x2 mu, svt_proposal (reduced Ein kT awr) l x2 mu ->
    svt_accepts Ein (target_speed kT awr x2) mu r -> svt_run Ein kT awr (l ++ [r]) x2 mu
| run_reject : forall l r x2' mu' l' x2 mu, svt_proposal (reduced Ein kT awr) l x2' mu' ->
    ~ svt_accepts Ein (target_speed kT awr x2') mu' r ->
    svt_run Ein kT awr l' x2 mu -> svt_run Ein kT awr (l ++ r :: l') x2 mu.

(** the velocity of speed [V], cosine [mu] to the neutron (the z axis) and azimuth fixed by [phi] *)
Definition velocity (V mu phi : R) : vec R :=
  mkVec (V * sqrt (1 - mu * mu) * sin phi) (- (V * sqrt (1 - mu * mu) * cos phi)) (V * mu).
(** the numbers [l] make the free-gas sampler return the target velocity [v] *)
Definition svt_velocity (Ein kT awr : R) (l : list R) (v : vec R) : Prop :=
  exists l0 xi x2 mu, l = l0 ++ [xi] /\ svt_run Ein kT awr l0 x2 mu /\ v = velocity (target_speed kT awr x2) mu (2 * PI * xi).

(** energy of the relative motion when the neutron flies along z *)
Definition relative_energy (Ein : R) (v : vec R) : R := norm2 (lin 1 (mkVec 0 0 (sqrt Ein)) (-1) v).

(** the window of relative energies, four reduced speeds on either side of the neutron's *)
Definition window_low (Ein kT awr : R) : R := (Rmax 0 (reduced Ein kT awr - 4))² * kT / awr.
Definition window_high (Ein kT awr : R) : R := (reduced Ein kT awr + 4)² * kT / awr.
(** [M] is the largest value of the cross section [s] on [[lo, hi]] *)
Definition maximum_on (s : R -> R) (lo hi M : R) : Prop :=
  (exists E, lo <= E <= hi /\ s E = M) /\ forall E, lo <= E <= hi -> s E <= M.
(** resonance rejection: a free-gas velocity is kept if its relative energy lies in the window and the uniform number
    [r] falls below s(Er) / M *)
Inductive dbrc_run (s : R -> R) (M Ein kT awr : R) : list R -> vec R -> Prop :=
| dbrc_accept : forall l v r, svt_velocity Ein kT awr l v ->
    window_low Ein kT awr <= relative_energy Ein v <= window_high Ein kT awr ->
    r * M < s (relative_energy Ein v) -> dbrc_run s M Ein kT awr (l ++ [r]) v
| dbrc_outside : forall l v' l' v, svt_velocity Ein kT awr l v' ->
    ~ (window_low Ein kT awr <= relative_energy Ein v' <= window_high Ein kT awr) ->
    dbrc_run s M Ein kT awr l' v -> dbrc_run s M Ein kT awr (l ++ l') v
| dbrc_reject : forall l v' r l' v, svt_velocity Ein kT awr l v' ->
    window_low Ein kT awr <= relative_energy Ein v' <= window_high Ein kT awr ->
    s (relative_energy Ein v') <= r * M ->
    dbrc_run s M Ein kT awr l' v -> dbrc_run s M Ein kT awr (l ++ r :: l') v.

(** * The joint law of a cosine and an energy *)
From Coq Require Import Reals ZArith List. From Coquelicot Require Import Coquelicot.
From Verif Require Import Base NumR L_SearchR M_Interp M_PC M_OutE S_OutE S_Prob. Import ListNotations.
Local Open Scope R_scope.
(** [s] returns a cosine in [-1,1] and an energy in [a,b] with joint density [f]: the probability of a cosine at most m and an energy at most x is
    the integral of f over [-1,m] x [a,x] (over the cosines at each energy, then over the energies) *)
Definition joint_law (s : rand R (R * R)) (a b : R) (f : R -> R -> R) : Prop :=
  law s (fun v => -1 <= fst v <= 1 /\ a <= snd v <= b) 1 /\
  forall m x, -1 <= m <= 1 -> a <= x <= b ->
    exists (g : R -> R) J, (forall h, a < h < x -> is_RInt (fun mu => f mu h) (-1) m (g h)) /\ is_RInt g a x J /\ law s (fun v => fst v <= m /\ snd v <= x) J.
(** the density of such a pair when the energy is stretched linearly from [a,b] to [lo,hi] *)
Definition stretched_pair (f : R -> R -> R) (a b lo hi : R) (mu x : R) : R := (b - a) / (hi - lo) * f mu (a + (x - lo) * ((b - a) / (hi - lo))).
(** the density p of a table of energies at h, between the points number k and k+1 *)
Definition between (energy : list R) (k : Z) (h : R) : Prop := (0 <= k)%Z /\ (k + 1 < sizeZ energy)%Z /\ getR energy k < h < getR energy (k + 1).
(** the angular table used for outgoing energies h between the points k and k+1 of an energy-angle table: that of point k where the density
    of energies is constant; otherwise that of point k for the less energetic half (in probability) of the outgoing energies between the points, and that of k+1
    for the other half *)
Definition lower_half (t : eat R) (k : Z) (h : R) : Prop :=
  let p := fun x => mix ((x - getR (ea_energy t) k) / (getR (ea_energy t) (k + 1) - getR (ea_energy t) k)) (getR (ea_pdf t) k) (getR (ea_pdf t) (k + 1)) in
  (getR (ea_pdf t) k + p h) / 2 * (h - getR (ea_energy t) k) < / 2 * ((getR (ea_pdf t) k + getR (ea_pdf t) (k + 1)) / 2 * (getR (ea_energy t) (k + 1) - getR (ea_energy t) k)).
Definition flat (t : eat R) (k : Z) : Prop := ea_interp t = Histogram \/ getR (ea_pdf t) k = getR (ea_pdf t) (k + 1).
Definition angular_table (t : eat R) (h : R) (a : pctable R) : Prop :=
  exists k, between (ea_energy t) k h /\
    ((flat t k \/ lower_half t k h) /\ atZ (ea_angles t) k = Ok a \/ ~ (flat t k \/ lower_half t k h) /\ atZ (ea_angles t) (k + 1) = Ok a).
(** a Kalbach table with positive slopes and precompound fractions in [0,1] *)
Definition good_kt (t : kt R) : Prop := valid_kt t /\ (forall a, In a (k_A t) -> 0 < a) /\ (forall r, In r (k_R t) -> 0 <= r <= 1).
(** the angular tables lie in [-1,1] *)
Definition cosines_in (t : eat R) : Prop := forall a, In a (ea_angles t) -> -1 <= first_of (pc_values a) /\ last_of (pc_values a) <= 1.

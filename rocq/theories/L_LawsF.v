(** * A file reaction whose sampled cosine is NaN (binary64) *)
From Coq Require Import ZArith List.
From Verif Require Import Base NumF M_Interp M_Func M_Grid M_PC M_OutE M_Spectra M_Kin M_Ace M_Neutron M_Laws L_KinF. Import ListNotations.
Local Open Scope float_scope.
(** MT 51, Q = -1, TYR = -1 (centre of mass), level scattering E' = (E - 2) / 2, isotropic, cross section tabulated from the energy 1 on *)
Definition level_xss : list float := [51; -1; -1; 1] ++ [1; 2; 5; 6] ++ [0; 0] ++ [1] ++ ([0; 3; 10] ++ [0; 2; 1; 2; 1; 1]) ++ [2; 0.5].
Definition level_jxs : list Z := [0; 0; 1; 2; 3; 4; 5; 9; 1; 11; 12; 0; 0; 0; 0; 0; 0; 0; 0; 0; 0; 0; 0; 0; 0; 0; 0; 0; 0; 0; 0; 0]%Z.
Definition level_ace : ace float := mkAce 1001%Z 2 300 false (repeat 0%Z 16) level_jxs level_xss.
Definition level_grid : egrid float := mkGrid [1; 2] [] 0 0.
Lemma level_nan : exists r mu e, @reaction_of_ace float (NumF lm_ex) level_ace 0 level_grid = Ok r /\ (rx_threshold r <=? 1) = true /\
  @reaction_sample float (NumF lm_ex) r 1 [0.25] = Ok ((mu, e), []) /\ is_nan mu = true.
Proof.
  assert (H : match @reaction_of_ace float (NumF lm_ex) level_ace 0 level_grid with
    | Ok r => match @reaction_sample float (NumF lm_ex) r 1 [0.25] with Ok ((mu, e), []) => ((rx_threshold r <=? 1) && is_nan mu)%bool | _ => false end | _ => false end = true) by (vm_compute; reflexivity).
  destruct (reaction_of_ace level_ace 0 level_grid) as [r| | |]; try discriminate. destruct (reaction_sample r 1 [0.25]) as [[[mu e] [|]]| | |] eqn:E; try discriminate.
  apply andb_prop in H as [H1 H2]. exists r, mu, e. split; [reflexivity|]. split; [exact H1|]. split; [exact E|exact H2].
Qed.

(** * Binary64: outgoing energies are not negative *)
From Coq Require Import Reals Lra Lia ZArith Bool List ZifyBool ZifyNat.
From Flocq Require Import Core IEEE754.BinarySingleNaN.
From Flocq Require Import IEEE754.PrimFloat.
From Coq Require Import Floats.
From Verif Require Import Base NumF S_PickF S_CosF S_CosG M_Kin M_Ace M_PC M_Spectra M_Laws L_Search L_Spectra L_PickF L_LinF L_XsF L_CosF L_CosF2 L_CosE L_CosG L_NbF.
Import ListNotations.
Local Open Scope R_scope.

Lemma sg_notneg x : sg false x -> PrimFloat.ltb x 0 = false.
Proof. unfold sg. rewrite ltb_equiv. destruct (Prim2B x) as [[]|[]| |[] m e H]; cbn; intros Q; try discriminate Q; reflexivity. Qed.
Lemma square_sg s : sg false (s * s)%float.
Proof. destruct (any_sg s) as [A|A]; exact (mul_sg _ _ _ _ A A). Qed.
(** a double between two doubles, the upper one finite *)
Lemma range_fin e M : fin M -> PrimFloat.leb 0 e = true -> PrimFloat.leb e M = true -> fin e /\ 0 <= BR e <= BR M.
Proof.
  intros FM L0 L1. assert (F : fin e).
  { unfold fin in *. rewrite leb_equiv in L0, L1. destruct (Prim2B e) as [s|s| |s m x H]; try reflexivity; exfalso.
    - destruct s; [vm_compute in L0; discriminate L0|]. destruct (Prim2B M) as [t|t| |t m' x' H']; try discriminate FM; cbn in L1; try destruct t; discriminate L1.
    - discriminate L1. }
  destruct zero_BR as [V0 F0]. split; [exact F|]. rewrite leb_equiv, Bleb_correct in L0, L1 by assumption. unfold BR in *. rewrite V0 in L0.
  destruct (Rle_bool_spec 0 (B2R (Prim2B e))); [|discriminate L0]. destruct (Rle_bool_spec (B2R (Prim2B e)) (B2R (Prim2B M))); [|discriminate L1]. lra.
Qed.
Section L.
  Variable lm : Libm.
  Local Notation NF := (NumF lm).
  Lemma elastic_energy e E_in ds mu Eo rest : @elastic_sample _ NF e E_in ds = Ok ((mu, Eo), rest) -> PrimFloat.ltb Eo 0 = false.
  Proof.
    intros H. unfold elastic_sample in H. cbv zeta in H. do 3 (unfold rbind at 1 in H; apply bind_ok in H as ([? ?] & _ & H)). unfold rret in H.
    match type of H with Ok (?p, _) = _ => assert (H' : p = (mu, Eo)) by (apply (f_equal (fun r => match r with Ok (q, _) => q | _ => p end)) in H; exact H) end.
    unfold elastic_out in H'. cbv zeta in H'. apply pair_equal_spec in H' as [_ <-]. apply sg_notneg, square_sg.
  Qed.
  Lemma mw_energy temp U E ds v rest : fin (E - U)%float -> @mw_sample _ NF temp U E ds = Ok (v, rest) -> fin v /\ 0 <= BR v <= BR (E - U)%float.
  Proof. intros F H. apply mw_range in H as [A B]. apply range_fin; assumption. Qed.
  Lemma ev_energy temp U E ds v rest : fin (E - U)%float -> @ev_sample _ NF temp U E ds = Ok (v, rest) -> fin v /\ 0 <= BR v <= BR (E - U)%float.
  Proof. intros F H. apply ev_range in H as [A B]. apply range_fin; assumption. Qed.
  Lemma w_energy d E ds v rest : fin (E - w_U d)%float -> @w_sample _ NF d E ds = Ok (v, rest) -> fin v /\ 0 <= BR v <= BR (E - w_U d)%float.
  Proof. intros F H. apply w_range in H as [A B]. apply range_fin; assumption. Qed.
  (** an inelastic level of Q-value -1 and mass 1 at 1.5 MeV, below its threshold of 2 MeV *)
  Lemma level_negative : exists d v, @make_level _ NF (-1)%float 1%float = Ok d /\ @lv_sample _ NF d 1.5%float [] = Ok (v, []) /\ PrimFloat.ltb v 0 = true.
  Proof. do 2 eexists. split; [vm_compute; reflexivity|]. split; vm_compute; reflexivity. Qed.
End L.

(** * C117: the rounding of the model is the binary64 rounding of Flocq.  Uses the axioms of the standard library's real numbers *)
From Coq Require Import Reals.
From Flocq Require Import Core.
From Verif Require Import Base Spec Rounded RndFlocq.

(** [real x] is the real number of the rational [x]. *)
Theorem C117_ieee : forall x, real (rnd64 x) = round radix2 (FLT_exp (-1074) 53) ZnearestE (real x).
Proof. exact rnd64_flocq. Qed.
(** Hence the floats of the model are the numbers of the binary64 format (without its upper bound). *)
Theorem C117_ieee_format : forall x, float rnd64 x <-> generic_format radix2 (FLT_exp (-1074) 53) (real x).
Proof.
  intro x. split.
  - intro F. rewrite <- F, C117_ieee. apply generic_format_round; [apply FLT_exp_valid; reflexivity|apply valid_rnd_N].
  - intro G. apply real_inj. rewrite C117_ieee. apply round_generic; auto. apply valid_rnd_N.
Qed.
Example C117_ieee_example : exists x, x <> rnd64 x /\ real (rnd64 x) = round radix2 (FLT_exp (-1074) 53) ZnearestE (real x).
Proof. exists eps. split; [|apply C117_ieee]. intro X. apply (f_equal (fun x => Qeq_bool (this x) (this eps))) in X. revert X. vm_compute. discriminate. Qed.

Print Assumptions C117_ieee.
Print Assumptions C117_ieee_format.

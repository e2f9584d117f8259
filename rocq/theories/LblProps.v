(** Theorems about the labels of lengths and angles.  C99. *)
From Coq Require Import ZArith QArith Qabs.
From Verif Require Import Py LblModel LblSpec LblFinal.

Theorem C99_defined val d c : (exists t, unit_str val d c = Ok t) <-> val == 0 \/ tiny < Qabs val.
Proof. eapply C99_defined_lem. Qed.
Theorem C99_value val d c t : unit_str val d c = Ok t -> pre t <> Centi -> Qabs (reads t - val) * (2 * inject_Z (10 ^ decimals t)) <= si (pre t).
Proof. eapply C99_value_lem. Qed.
Theorem C99_relative val d c t : unit_str val d c = Ok t -> pre t <> Centi -> (0 <= d)%Z -> Qabs (reads t - val) * (2 * inject_Z (10 ^ d)) <= Qabs val.
Proof. eapply C99_relative_lem. Qed.
Theorem C99_size val d c t : unit_str val d c = Ok t -> pre t <> Centi -> ~ val == 0 ->
  si (pre t) < Qabs val /\ (pre t <> Kilo -> pre t <> Femto -> Qabs val <= 1000 * si (pre t)) /\ (pre t = Femto -> Qabs val <= 1000000 * si (pre t)).
Proof. eapply C99_size_lem. Qed.
Theorem C99_sign val d c t : unit_str val d c = Ok t -> pre t <> Centi -> Qabs val <= 10 * si (pre t) ->
  unit_str (- val) d c = Ok (Label (- digits t) (decimals t) (pre t)).
Proof. eapply C99_sign_lem. Qed.
Theorem C99_centi val d c t : unit_str val d c = Ok t -> pre t = Centi ->
  c = true /\ (1 # 100) < Qabs val /\ Qabs val <= 1 /\ Qabs (reads t - val / 10000) * (2 * inject_Z (10 ^ decimals t)) <= 1 # 100.
Proof. eapply C99_centi_lem. Qed.
Theorem C99_centi_refuted : exists val d t, unit_str val d true = Ok t /\ ~ Qabs (reads t - val) * (2 * inject_Z (10 ^ decimals t)) <= si (pre t).
Proof. eapply C99_centi_refuted_lem. Qed.
Theorem C99_pico_refuted : exists val d t, unit_str val d false = Ok t /\ 1000 * si (pre t) < Qabs val /\ Qabs val < 1 # 1000000000.
Proof. eapply C99_pico_refuted_lem. Qed.
Theorem C99_sign_refuted : exists val d t t', unit_str val d false = Ok t /\ unit_str (- val) d false = Ok t' /\ decimals t <> decimals t'.
Proof. eapply C99_sign_refuted_lem. Qed.
Example C99_example : exists val d t, unit_str val d false = Ok t /\ pre t <> Centi /\ (0 <= d)%Z /\ ~ val == 0 /\ Qabs val <= 10 * si (pre t) /\ digits t = 1234%Z /\ ~ reads t == val.
Proof. eapply C99_example_lem. Qed.
Example C99_example_c : exists val d t, unit_str val d true = Ok t /\ pre t = Centi.
Proof. eapply C99_example_c_lem. Qed.
Print Assumptions C99_defined.
Print Assumptions C99_value.
Print Assumptions C99_relative.
Print Assumptions C99_size.
Print Assumptions C99_sign.
Print Assumptions C99_centi.
Print Assumptions C99_centi_refuted.
Print Assumptions C99_pico_refuted.
Print Assumptions C99_sign_refuted.

(** Edge cases of earlier properties, continued (C57, C62, C128) *)
From Coq Require Import String Ascii List ZArith Bool Lia.
From Verif Require Import Base Base_Proofs Ids_Model Mf_Model Mf_Spec Rdr_Model Fit_Model.
Import ListNotations.
Local Open Scope string_scope.

(** the names that can not be used for a configuration are those of the attributes of the container, and those that are no
    identifiers; all others can *)
Theorem C62_reserved : forall m n f,
  (In n ["config_names"; "configs"; "_accessor"; "_dataset"; "_aux_data"; "_reader_arg"; "_RT1_version"] -> add_config m n f = Err AssertionError) /\
  (str_isidentifier n = false -> add_config m n f = Err AssertionError) /\
  (str_isidentifier n = true -> ~ In n ["config_names"; "configs"; "_accessor"; "_dataset"; "_aux_data"; "_reader_arg"; "_RT1_version"] ->
     exists m', add_config m n f = Ok m' /\ m_names m' = (m_names m ++ [n])%list).
Proof.
  intros m n f. change (["config_names"; "configs"; "_accessor"; "_dataset"; "_aux_data"; "_reader_arg"; "_RT1_version"]) with mf_dict. unfold add_config. split; [|split].
  - intros I. rewrite (proj2 (inb_iff string_dec n mf_dict) I). destruct (str_isidentifier n); reflexivity.
  - intros ->. reflexivity.
  - intros -> I. rewrite (proj2 (inb_false string_dec n mf_dict) I). cbn. eexists. split; reflexivity.
Qed.
Print Assumptions C62_reserved.
Example C62_reserved_example : add_config new_multi "_accessor" 1 = Err AssertionError /\ add_config new_multi "a b" 1 = Err AssertionError /\
  add_config new_multi "_dataset" 1 = Err AssertionError /\ exists m, add_config new_multi "accessor" 1 = Ok m.
Proof. repeat split. eexists. reflexivity. Qed.

(** whatever is not there is an AttributeError *)
Theorem C128_missing : forall store a b, (forall key, access store a b <> Ok key) -> access store a b = Err AttributeError.
Proof.
  intros store a b H. unfold access in *. destruct (dget string_dec a (datasets store)) as [[key|tbls]|], b as [b|]; try reflexivity; [elim (H key); reflexivity|].
  destruct (dget string_dec b tbls) as [k|]; [elim (H ("/" ++ k)); reflexivity|reflexivity].
Qed.
Print Assumptions C128_missing.
Example C128_missing_example : access ["/cfg1/dynamic"; "/reader_arg"] "cfg1" (Some "static") = Err AttributeError /\
  access ["/cfg1/dynamic"; "/reader_arg"] "cfg2" (Some "dynamic") = Err AttributeError /\ access ["/cfg1/dynamic"; "/reader_arg"] "cfg1" (Some "dynamic") = Ok "/cfg1/dynamic".
Proof. repeat split. Qed.

(** group numbers that pass through floats: exact below 2^53; otherwise the nearest double, the even one of two *)
Theorem C57_float : forall z, (0 <= z)%Z ->
  ((z < 2 ^ 53)%Z -> round53 z = z) /\
  ((2 ^ 53 <= z)%Z -> exists k q, (1 <= k)%Z /\ (2 ^ (52 + k) <= z < 2 ^ (53 + k))%Z /\ round53 z = (q * 2 ^ k)%Z /\ (2 ^ 52 <= q <= 2 ^ 53)%Z /\
     (2 * Z.abs (round53 z - z) <= 2 ^ k)%Z /\ ((2 * Z.abs (round53 z - z) = 2 ^ k)%Z -> Z.even q = true)).
Proof.
  intros z Hz. unfold round53. destruct (Z.ltb_spec z (2 ^ 53)) as [L|L]; split; intros H; try lia; [].
  set (k := (Z.log2 z - 52)%Z). assert (P : (0 < z)%Z) by lia. destruct (Z.log2_spec z P) as [A B].
  assert (K1 : (1 <= k)%Z) by (unfold k; assert (53 <= Z.log2 z)%Z by (apply Z.log2_le_pow2; lia); lia).
  replace (Z.log2 z) with (52 + k)%Z in A by (unfold k; lia). replace (Z.succ (Z.log2 z)) with (53 + k)%Z in B by (unfold k; lia). clearbody k.
  set (u := (2 ^ k)%Z). assert (U : (0 < u)%Z) by (apply Z.pow_pos_nonneg; lia). assert (U2 : (2 * 2 ^ (k - 1) = u)%Z) by (unfold u; replace k with (Z.succ (k - 1)) at 2 by lia; rewrite Z.pow_succ_r by lia; lia).
  assert (E52 : (2 ^ (52 + k) = 2 ^ 52 * u)%Z) by (unfold u; apply Z.pow_add_r; lia). assert (E53 : (2 ^ (53 + k) = 2 ^ 53 * u)%Z) by (unfold u; apply Z.pow_add_r; lia).
  pose proof (Z.div_mod z u ltac:(lia)) as D. pose proof (Z.mod_pos_bound z u U) as M. set (q := (z / u)%Z) in *. set (r := (z mod u)%Z) in *.
  assert (Q1 : (2 ^ 52 <= q)%Z) by (apply Z.div_le_lower_bound; lia). assert (Q2 : (q < 2 ^ 53)%Z) by (apply Z.div_lt_upper_bound; lia).
  set (h := (2 ^ (k - 1))%Z) in *. clearbody q r h.
  destruct (Z.ltb_spec h r) as [C|C]; cbn [orb].
  - exists k, (q + 1)%Z. fold u. split; [exact K1|]. split; [lia|]. split; [reflexivity|]. split; [lia|]. replace ((q + 1) * u - z)%Z with (u - r)%Z by lia. rewrite Z.abs_eq by lia. split; lia.
  - destruct (Z.eqb_spec h r) as [C2|C2]; cbn [andb].
    + destruct (Z.odd q) eqn:O.
      * exists k, (q + 1)%Z. fold u. split; [exact K1|]. split; [lia|]. split; [reflexivity|]. split; [lia|]. replace ((q + 1) * u - z)%Z with (u - r)%Z by lia. rewrite Z.abs_eq by lia. split; [lia|].
        intros _. rewrite Z.even_add. cbn. rewrite <- Z.negb_odd, O. reflexivity.
      * exists k, q. fold u. split; [exact K1|]. split; [lia|]. split; [reflexivity|]. split; [lia|]. replace (q * u - z)%Z with (- r)%Z by lia. rewrite Z.abs_opp, Z.abs_eq by lia. split; [lia|].
        intros _. rewrite <- Z.negb_odd, O. reflexivity.
    + exists k, q. fold u. split; [exact K1|]. split; [lia|]. split; [reflexivity|]. split; [lia|]. replace (q * u - z)%Z with (- r)%Z by lia. rewrite Z.abs_opp, Z.abs_eq by lia. split; lia.
Qed.
Print Assumptions C57_float.
Example C57_float_example : round53 (2 ^ 53 + 1) = (2 ^ 53)%Z /\ round53 (2 ^ 53 + 3) = (2 ^ 53 + 4)%Z /\ round53 (2 ^ 60 + 129) = (2 ^ 60 + 256)%Z.
Proof. repeat split. Qed.

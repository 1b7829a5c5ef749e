From Verif Require Import GoInt GoFloat GoVal MetaModel MetaSpec MetaProof.
From Coq Require Import Lia ZifyBool.

Lemma rune_ok z : code_point z -> utf8 z (rune_string z).
Proof.
  unfold code_point, rune_string. intros H. destruct (Z.ltb_spec z 128).
  - replace ((0 <=? z) && true) with true by lia. apply utf8_1. lia.
  - rewrite andb_false_r. assert (D : forall m, 0 < m -> z = m * (z / m) + z mod m /\ 0 <= z mod m < m) by (intros m Hm; split; [apply Z.div_mod; lia|apply Z.mod_pos_bound; lia]).
    pose proof (D 64 ltac:(lia)) as D1.
    destruct (Z.ltb_spec z 2048).
    + replace ((0 <=? z) && true) with true by lia.
      replace z with (z / 64 * 64 + z mod 64) at 1 by lia. change 192 with 0xC0. change 128 with 0x80. apply utf8_2; lia.
    + rewrite andb_false_r.
      assert (E1 : z / 64 = 64 * (z / 4096) + z / 64 mod 64 /\ 0 <= z / 64 mod 64 < 64).
      { replace (z / 4096) with (z / 64 / 64) by (rewrite Z.div_div by lia; reflexivity). split; [apply Z.div_mod; lia|apply Z.mod_pos_bound; lia]. }
      destruct (Z.ltb_spec z 65536).
      * replace ((0 <=? z) && true && negb ((55296 <=? z) && (z <? 57344))) with true by lia.
        replace z with ((z / 4096 * 64 + z / 64 mod 64) * 64 + z mod 64) at 1 by lia. change 224 with 0xE0. change 128 with 0x80. apply utf8_3; lia.
      * rewrite andb_false_r. cbn [andb]. replace ((65536 <=? z) && (z <? 1114112)) with true by lia.
        assert (E2 : z / 4096 = 64 * (z / 262144) + z / 4096 mod 64 /\ 0 <= z / 4096 mod 64 < 64).
        { replace (z / 262144) with (z / 4096 / 64) by (rewrite Z.div_div by lia; reflexivity). split; [apply Z.div_mod; lia|apply Z.mod_pos_bound; lia]. }
        replace z with (((z / 262144 * 64 + z / 4096 mod 64) * 64 + z / 64 mod 64) * 64 + z mod 64) at 1 by lia.
        change 240 with 0xF0. change 128 with 0x80. apply utf8_4; lia.
Qed.
Lemma rune_bad z : ~ code_point z -> utf8 0xFFFD (rune_string z).
Proof.
  unfold code_point, rune_string. intros H.
  replace ((0 <=? z) && (z <? 128)) with false by lia. replace ((0 <=? z) && (z <? 2048)) with false by lia.
  replace ((0 <=? z) && (z <? 65536) && negb ((55296 <=? z) && (z <? 57344))) with false by lia.
  replace ((65536 <=? z) && (z <? 1114112)) with false by lia. apply (utf8_3 15 63 61); lia.
Qed.
Lemma int_to_string ws open t v z : holds v z -> exists s, convert ws open (TyStr t) v = Some (VStr t s) /\
  (code_point z -> utf8 z s) /\ (~ code_point z -> utf8 0xFFFD s).
Proof. intros [t' k n|t' k n]; eexists; (split; [reflexivity|split; [apply rune_ok|apply rune_bad]]). Qed.

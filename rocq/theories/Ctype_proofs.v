Require Import ZArith List Bool Lia.
From Verif Require Import Base Ctype_model.
Import ListNotations.
Open Scope Z_scope.

Definition ascii_space (c : Z) : bool := ((9 <=? c) && (c <=? 13)) || (c =? 32).
Definition ascii_digit (c : Z) : bool := (48 <=? c) && (c <=? 57).
Definition ascii_upper (c : Z) : bool := (65 <=? c) && (c <=? 90).
Definition ascii_lower (c : Z) : bool := (97 <=? c) && (c <=? 122).
Definition ascii_xdigit (c : Z) : bool := ascii_digit c || ((65 <=? c) && (c <=? 70)) || ((97 <=? c) && (c <=? 102)).
Definition ascii_print (c : Z) : bool := (32 <=? c) && (c <=? 126).

Lemma all_bytes : forall (f : Z -> bool), forallb f (map Z.of_nat (seq 0 256)) = true -> forall c, 0 <= c < 256 -> f c = true.
Proof.
  intros f H c Hc. rewrite forallb_forall in H. apply H. apply in_map_iff. exists (Z.to_nat c). split; [lia|].
  apply in_seq. lia.
Qed.
Ltac by_table := intros c Hc; apply Bool.eqb_prop; revert c Hc; apply all_bytes; vm_compute; reflexivity.

Lemma lisspace_ok : forall c, 0 <= c < 256 -> lisspace c = ascii_space c. Proof. by_table. Qed.
Lemma lisdigit_ok : forall c, 0 <= c < 256 -> lisdigit c = ascii_digit c. Proof. by_table. Qed.
Lemma lisxdigit_ok : forall c, 0 <= c < 256 -> lisxdigit c = ascii_xdigit c. Proof. by_table. Qed.
Lemma lisprint_ok : forall c, 0 <= c < 256 -> lisprint c = ascii_print c. Proof. by_table. Qed.
Lemma lislalpha_ok : forall c, 0 <= c < 256 -> lislalpha c = ascii_upper c || ascii_lower c || (c =? 95). Proof. by_table. Qed.
Lemma lislalnum_ok : forall c, 0 <= c < 256 -> lislalnum c = ascii_upper c || ascii_lower c || (c =? 95) || ascii_digit c. Proof. by_table. Qed.

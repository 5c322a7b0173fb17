(* C20: string.pack, string.unpack and string.packsize. *)
Require Import ZArith List Bool Lia.
From Verif Require Import Base Base_facts Str Strlib_model Strlib_spec Pack_model Pack_spec Pack_proofs.
Import ListNotations.
Open Scope Z_scope.

(* pack succeeds exactly for formats of the manual whose arguments convert and fit, and writes exactly the aligned bytes of their values, for both byte orders of the machine *)
Theorem C20_pack : forall nl V toint tonum tostr ts, conversions V toint tonum tostr ts -> forall fmt args s,
  str_pack nl V toint tonum tostr ts fmt args = Ok s <-> exists os, format os (c_string fmt) /\ written nl ts V (arg V toint tonum tostr) (nl, 1) 0 os args s.
Proof. exact pack_iff. Qed.
Print Assumptions C20_pack.

(* pack ends with a string or an error and has no undefined behaviour *)
Theorem C20_pack_total : forall nl V toint tonum tostr ts, conversions V toint tonum tostr ts -> forall fmt args, (exists s, str_pack nl V toint tonum tostr ts fmt args = Ok s) \/ exists e, str_pack nl V toint tonum tostr ts fmt args = Err e.
Proof. exact pack_total. Qed.
Print Assumptions C20_pack_total.

(* what unpack returns is what the format says about the bytes from the start position on; the position returned is at most one beyond the data *)
Theorem C20_unpack_sound : forall nl os_ sr data init, wf_str data -> slen data <= maxint -> is_s64 init -> forall fmt us p, str_unpack nl os_ sr fmt data init = Ok (us, p) ->
  first_pos (slen data) init - 1 <= slen data /\ p - 1 <= slen data /\ exists os, format os (c_string fmt) /\ read nl os_ (nl, 1) data (first_pos (slen data) init - 1) os (map to_val us) (p - 1).
Proof. exact unpack_spec. Qed.
Print Assumptions C20_unpack_sound.

(* with room on the stack unpack succeeds exactly when the format describes the data *)
Theorem C20_unpack : forall nl os_ sr data init, wf_str data -> slen data <= maxint -> is_s64 init -> (forall n, sr n = true) -> forall fmt us p, str_unpack nl os_ sr fmt data init = Ok (us, p) <->
  first_pos (slen data) init - 1 <= slen data /\ exists os, format os (c_string fmt) /\ read nl os_ (nl, 1) data (first_pos (slen data) init - 1) os (map to_val us) (p - 1).
Proof. exact unpack_iff. Qed.
Print Assumptions C20_unpack.

(* unpack ends with values or an error for every format, every data and every start: no read outside the data *)
Theorem C20_unpack_total : forall nl os_ sr data init, wf_str data -> slen data <= maxint -> is_s64 init -> forall fmt, (exists r, str_unpack nl os_ sr fmt data init = Ok r) \/ exists e, str_unpack nl os_ sr fmt data init = Err e.
Proof. exact unpack_total. Qed.
Print Assumptions C20_unpack_total.

(* unpack with the same format returns what pack was given, at any aligned place inside any data: integers and strings unchanged, floats as single precision for f, strings of fixed size padded; the position is the one after the packed data *)
Theorem C20_roundtrip : forall nl V toint tonum tostr ts os_ sr, conversions V toint tonum tostr ts -> forall fmt args s pre post, str_pack nl V toint tonum tostr ts fmt args = Ok s -> wf_str pre -> wf_str post -> slen (pre ++ s ++ post) < maxint ->
  slen pre mod 16 = 0 -> (forall n, 0 <= n <= Z.of_nat (length args) -> sr n = true) ->
  exists os us, format os (c_string fmt) /\ str_unpack nl os_ sr fmt (pre ++ s ++ post) (slen pre + 1) = Ok (us, slen pre + slen s + 1) /\ back ts os_ (arg V toint tonum tostr) os args (map to_val us).
Proof. exact pack_unpack. Qed.
Print Assumptions C20_roundtrip.

(* packsize gives the sum of sizes and padding exactly for formats without s and z whose size is at most 2^31-1 *)
Theorem C20_packsize : forall nl fmt n, str_packsize nl fmt = Ok n <-> n <= 2147483647 /\ exists os, format os (c_string fmt) /\ span nl (nl, 1) 0 os n.
Proof. exact packsize_iff. Qed.
Print Assumptions C20_packsize.

(* no int overflow in packsize *)
Theorem C20_packsize_total : forall nl fmt, (exists n, str_packsize nl fmt = Ok n) \/ exists e, str_packsize nl fmt = Err e.
Proof. exact packsize_total. Qed.
Print Assumptions C20_packsize_total.

(* every string packed with a format has the length packsize says *)
Theorem C20_packsize_length : forall nl V toint tonum tostr ts, conversions V toint tonum tostr ts -> forall fmt args n s, str_packsize nl fmt = Ok n -> str_pack nl V toint tonum tostr ts fmt args = Ok s -> slen s = n.
Proof. exact packsize_length. Qed.
Print Assumptions C20_packsize_length.

(* numbers are converted, strings are not; single precision as the upper half of the bits *)
Inductive wv := WI (n : Z) | WS (s : list Z).
Definition w_int v := match v with WI n => if (-9223372036854775808 <=? n) && (n <? 9223372036854775808) then Some n else None | _ => None end.
Definition w_num v := match v with WI n => Some (u64 n) | _ => None end.
Definition w_str v := match v with WS s => if forallb (fun b => (0 <=? b) && (b <? 256)) s && (slen s <=? maxint) then Some s else None | _ => None end.
Definition w_single x := u32 (x / 2 ^ 32).
Definition w_double x := x * 2 ^ 32.
(* ">!8 i2 i8 c4 s1 z f Xi4 I16 <i3" *)
Definition w_fmt : list Z := [62; 33; 56; 32; 105; 50; 32; 105; 56; 32; 99; 52; 32; 115; 49; 32; 122; 32; 102; 32; 88; 105; 52; 32; 60; 105; 51].
Definition w_args := [WI (-2); WI 258; WS [65; 66]; WS [67; 68]; WS [69]; WI 4607182418800017408; WI (-3)].
Definition w_out : list Z := [255; 254; 0; 0; 0; 0; 0; 0; 0; 0; 0; 0; 0; 0; 1; 2; 65; 66; 0; 0; 2; 67; 68; 69; 0; 0; 0; 0; 63; 240; 0; 0; 253; 255; 255].
Example C20_witness :
  conversions wv w_int w_num w_str w_single /\
  str_pack true wv w_int w_num w_str w_single w_fmt w_args = Err EArg /\
  str_pack true wv w_int w_num w_str w_single (firstn 24 w_fmt ++ [60; 33; 49; 105; 51]) w_args = Ok w_out /\
  str_unpack true w_double (fun _ => true) (firstn 24 w_fmt ++ [60; 33; 49; 105; 51]) (repeat 7 16 ++ w_out ++ [1]) 17 =
    Ok ([UInt (-2); UInt 258; UStr [65; 66; 0; 0]; UStr [67; 68]; UStr [69]; UFlt 4607182418800017408; UInt (-3)], 52) /\
  str_unpack true w_double (fun _ => true) [105; 57] [0; 0; 0; 0; 0; 0; 0; 0; 1] 1 = Err EArg /\
  str_packsize true [33; 98; 105; 56] = Ok 16.
Proof.
  split; [split; [|split; [|split]]|split; [vm_compute; reflexivity|split; [vm_compute; reflexivity|split; [vm_compute; reflexivity|split; vm_compute; reflexivity]]]].
  - intros v n E. destruct v; cbn in E; [|discriminate]. destruct (_ && _) eqn:B in E; [|discriminate]. injection E as <-. apply andb_true_iff in B. destruct B as [B1 B2]. apply Z.leb_le in B1. apply Z.ltb_lt in B2. unfold is_s64. unfold_consts. lia.
  - intros v x H. destruct v; cbn in H; [|discriminate]. injection H as <-. apply u64_range.
  - intros v s H. destruct v as [|t]; cbn [w_str] in H; [discriminate|]. destruct (forallb _ t && (slen t <=? maxint)) eqn:B in H; [|discriminate]. injection H as <-. apply andb_true_iff in B. destruct B as [B1 B]. apply Z.leb_le in B. split; [exact B|]. apply Forall_forall. intros b IN. rewrite forallb_forall in B1. specialize (B1 b IN). apply andb_true_iff in B1. destruct B1 as [B1 B2]. apply Z.leb_le in B1. apply Z.ltb_lt in B2. split; assumption.
  - intros x. apply u32_range.
Qed.

(** C23: data hashes. *)
From Verif Require Import Base HashModel HashSpec HashProofs.

(** For every byte string and every map size, the value is the published hash of the whole string. *)
Theorem c23_jenkins (data : list N) (pms : nat) : pms <> 0 -> jenkins32 data pms = Some (one_at_a_time data).
Proof. apply jenkins32_spec. Qed.
Print Assumptions c23_jenkins.

Theorem c23_murmur (data : list N) (pms : nat) : bytes_ok data -> murmur32 data pms = Some (murmur3_32 data 0).
Proof. apply murmur32_spec. Qed.
Print Assumptions c23_murmur.

(** The specification gives the published test values: "a" and "The quick brown fox jumps over the lazy dog" for
    one-at-a-time, and "test", "Hello, world!" for MurmurHash3 with seed 0; and maps of 1, 3 and 5 bytes agree. *)
Definition fox : list N := [84;104;101;32;113;117;105;99;107;32;98;114;111;119;110;32;102;111;120;32;106;117;109;112;115;32;
  111;118;101;114;32;116;104;101;32;108;97;122;121;32;100;111;103]%N.
Definition hello : list N := [72;101;108;108;111;44;32;119;111;114;108;100;33]%N.
Example c23_vectors : one_at_a_time [97]%N = 0xca2e9442%N /\ one_at_a_time fox = 0x519e91f5%N /\
  murmur3_32 [116;101;115;116]%N 0 = 0xba6bd213%N /\ murmur3_32 hello 0 = 0xc0363e43%N.
Proof. vm_compute. auto. Qed.
Example c23_case : bytes_ok hello /\ map (murmur32 hello) [1; 3; 5; 9; 100] = repeat (Some 0xc0363e43%N) 5 /\
  map (jenkins32 fox) [1; 3; 5; 100] = repeat (Some 0x519e91f5%N) 4.
Proof. split; [unfold bytes_ok, hello; repeat constructor|vm_compute; auto]. Qed.

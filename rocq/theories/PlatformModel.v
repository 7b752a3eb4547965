(** Model of include/stdex/sys_info.hpp: platform_id (32-48), platform_from_name (57-79), and os_platform of the constructor of
    sys_info_t on POSIX (175-179).  The other members of sys_info_t are not modelled. *)
From Coq Require Ascii String.
From Verif Require Import Base StringModel LangidModel MiscModel RfcModel.
Import String.StringSyntax.
(** sys_info.hpp:32-48 (not Windows) *)
Definition platform_unknown : Z := 0.
Definition platform_i386 : Z := 0x014c.
Definition platform_x86_64 : Z := 0x8664.
Definition platform_arm : Z := 0x01c4.
Definition platform_aarch64 : Z := 0xaa64.
(** sys_info.hpp:59-64; string.hpp:1136-1148 is [stricmp tolower] *)
Definition platform_less (a b : list Z) : outcome bool := let* c := stricmp tolower a b in Ret (c <? 0).
(** sys_info.hpp:65-70 *)
Definition platform_table : list (list Z * Z) :=
  [(chars "aarch64" ++ [0], platform_aarch64); (chars "arm" ++ [0], platform_arm); (chars "i386" ++ [0], platform_i386); (chars "x86_64" ++ [0], platform_x86_64)].
(** sys_info.hpp:71-74; [t] is the static map *)
Definition platform_from_name (t : tree (list Z) Z) (name : list Z) : outcome Z :=
  let* el := map_find platform_less t name in
  match el with Some v => Ret v | None => Ret platform_unknown end.
(** sys_info.hpp:130, 175-179: [machine] is what uname stores in m_utsn.machine, [None] where it fails *)
Definition os_platform (t : tree (list Z) Z) (machine : option (list Z)) : outcome Z :=
  match machine with Some m => platform_from_name t m | None => Ret platform_unknown end.

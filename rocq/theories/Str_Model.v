(* Copying host strings into plugin memory: vm/plugin-runtime.cpp:585-696.  A C string is the list of
   its bytes without the terminator; it is read before anything is written, as memmove does, so it may
   lie in plugin memory.  size_t is 64 bits; an address dest + len wraps as on a 64-bit host. *)
From Verif Require Import Base Rt_Model.

(* The test shared by LocalToPhysAddr, LocalToString, StringToLocal and StringToLocalUTF8. *)
Definition bad_host_address (s : rt) (a : Z) : bool :=
  ((a >=? hp s) && (a <? sp s)) || (a <? 0) || (a >=? mem_size s).

(* vm/plugin-runtime.cpp:585-607: the offset of the pointer. *)
Definition LocalToPhysAddr (a : Z) : RM Z := fun s =>
  if bad_host_address s a then Fail INVALID_ADDRESS s else Ok a s.
Definition LocalToString (a : Z) : RM Z := LocalToPhysAddr a.

(* Reading one byte, and memmove from host memory. *)
Definition rd8 (a : Z) : RM Z := fun s => if in_mem s a 1 then Ok (mem s a) s else UB UBMem.
Definition copy_in (a : Z) (data : list Z) : RM unit := fun s =>
  if Z.of_nat (length data) =? 0 then Ok tt s
  else if in_mem s a (Z.of_nat (length data)) then Ok tt (set_mem (write_bytes (mem s) a data) s) else UB UBMem.

(* StringToLocal, vm/plugin-runtime.cpp:609-632. *)
Definition StringToLocal (a bytes : Z) (source : list Z) : RM unit := fun s =>
  if bad_host_address s a then Fail INVALID_ADDRESS s
  else if bytes =? 0 then Ok tt s
  else
    let len := Z.of_nat (length source) in
    let len := if len >=? bytes then bytes - 1 else len in
    (copy_in a (firstn (Z.to_nat len) source);;; wr8 (a + len) 0) s.

(* __CheckValidChar, 634-662; [a] is the pointer.  The loop stops at a byte that does not continue a
   character. *)
Fixpoint CheckValidChar (fuel : nat) (a count : Z) : RM Z := fun s =>
  match rd8 a s with
  | Ok c s =>
    if Z.land c 0xC0 =? 0x80 then
      match fuel with O => UB UBMem | S n => CheckValidChar n (a - 1) (count + 1) s end
    else
      let bytecount :=
        if (Z.land c 0xF0 =? 0xC0) || (Z.land c 0xF0 =? 0xD0) then 2
        else if Z.land c 0xF0 =? 0xE0 then 3
        else if Z.land c 0xF0 =? 0xF0 then 4 else 0 in
      Ok (if negb (bytecount =? count) then count else 0) s
  | Fail e s => Fail e s
  | UB u => UB u
  end.

(* StringToLocalUTF8, 664-696: the length reported through wrtnbytes (nothing is when maxbytes is 0). *)
Definition StringToLocalUTF8 (a maxbytes : Z) (source : list Z) : RM (option Z) := fun s =>
  if bad_host_address s a then Fail INVALID_ADDRESS s
  else if maxbytes =? 0 then Ok None s
  else
    let len := Z.of_nat (length source) in
    let needtocheck := len >=? maxbytes in
    let len := if needtocheck then maxbytes - 1 else len in
    (copy_in a (firstn (Z.to_nat len) source);;;
     last <- rd8 (a + (len - 1));;
     len <- (if negb (Z.land last 0x80 =? 0) && needtocheck
             then r <- CheckValidChar (Z.to_nat (a + len)) (a + len - 1) 1;; ret (u64 (len - r))
             else ret len);;
     wr8 (a + wrap64 len) 0;;;
     ret (Some len)) s.

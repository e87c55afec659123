# Formal model of Reliance Edge (datalightinc/reliance-edge) in Rocq / Coq 8.16.1

All Coq files are in `rocq/theories/` (logical name `Verif`). `properties.jsonl` states the properties
in English, `MANIFEST.json` names the theorems for each of them, `seeded/LOG.jsonl` records the wrong
programs the theorems were tested against.

## 1. How the model is organised

The C functions are modelled one by one as total Gallina functions; the comment before each definition
cites the file and lines of /repo that it models and says what is simplified. C unsigned arithmetic is
`N` with explicit `u8/u16/u32/u64` (mod 2^k) wherever the property is about wrap-around. Errors are an
explicit result type (`res`). Loops that are not structural take fuel; running out of fuel is a separate
outcome (`None`) that the theorems exclude by proof.

The code base is modelled at two levels that are connected by theorems.

*Byte level*, one module each, with device failures, checksums, byte order, and machine integers:

| model | C code | proofs | properties |
|---|---|---|---|
| `Base.v` | redmacs.h, rederrno.h | | integers, errors |
| `Bitmap.v`, `Endian.v`, `Crc.v`, `CrcTables.v`, `Mem.v` | util/bitmap.c, endian.c, crc.c, memory.c, string.c, namelen.c | same files, `PropUtil.v` | C07 C11 C12 C13 C31 |
| `Geometry.v` | bdev.c RedBDevOpen; volume.c RedVolInitGeometry; block numbers of imap nodes and inodes | `PropGeom.v` | C14 |
| `Bdev.v` | blockio.c, bdev.c | `PropBdev.v` | C32 C33 |
| `ImapBytes.v` | imapinline.c, imapextern.c, dispatch in imap.c | `PropImapE.v` | C08 |
| `Cache.v` | buffer.c; direct I/O of inodedata.c | `CacheP.v`, `PropCache.v` against `CacheSpec.v` | C09 |
| `Metaroot.v` | volume.c: MetarootIsValid, RedVolMountMetaroot, RedVolTransact, MetaRootEndianSwap | `MetarootP.v`, `PropMeta.v`, `PropMetaM.v` against `MetaSpec.v` | C04 |
| `Node.v` | buffer.c: byte order, seal, validation of all node types; format.c/volume.c: master block | `NodeP.v`, `PropNode.v` against `NodeSpec.v` | C39 C40 |

*File-system level*, where a block holds a typed node, for all sizes, histories and crash points:

| model | C code |
|---|---|
| `FsState.v` | volume state, macros of redcoremacs.h / rednodes.h / dir.c |
| `FsImap.v` | imap.c (allocation front end, counters) |
| `FsInode.v` | inode.c (slots, CINODE, create, delete, link counts) |
| `FsData.v` | inodedata.c (seek, branch, read, write, truncate, expand) |
| `FsDir.v` | dir.c |
| `FsCore.v` | core.c (file and directory operations) |
| `FsVolume.v` | volume.c, format.c, automatic transactions of core.c, device with volatile writes and power loss |
| `Posix.v` | posix.c, path.c (all API functions, handles, tasks, descriptors) |
| `FseVol.v`, `FseApi.v` | fse.c (all functions); the core as compiled with REDCONF_API_FSE (format, inode creation); OS mutex and clock failures and RedCoreInit's configuration checks are not modelled |
| `FltMonad.v`, `FltImap.v`, `FltInode.v`, `FltData.v`, `FltDir.v`, `FltCore.v`, `FltVolume.v`, `FltFse.v` | the same functions of imap.c, inode.c, inodedata.c, dir.c, core.c, volume.c as relations, in which any device operation may fail |
| `PosixConc.v` | PosixEnter/PosixLeave/red_errnoptr as an interleaving of atomic steps |
| `FseConc.v` | FseEnter/FseLeave/RedCoreVolSetCurrent as an interleaving of atomic steps |
| `Math.v` | tests/util/math.c: RedUint64DivMod32, RedUint64DivMod64, nlz64, RedMulDiv64, RedRatio (numbers printed) |
| `Atoi.v` | tests/util/atoi.c (all functions) |
| `Rand.v` | tests/util/rand.c (all functions) |
| `Printf.v` | tests/util/printf.c (RedVSNPrintf and all it calls; RedPrintf, RedVPrintf only pass its output on) |
| `Getopt.v` | tools/getopt.c (all functions; error messages left out) |
| `Tool.v` | tools/toolcmn.c (all functions) |
| `OsDisk.v` | os/linux/services/osbdev.c (all but GetGeometry) |

Proofs for these: `FsImapProof`, `FsInv`, `FsVol`–`FsVol4`, `FsStep`, `FsTree`, `FsSeek`, `FsBranch`,
`FsTrunc`–`FsTrunc5`, `FsWrite`, `FsWrite2`, `FsWr`, `FsRead`, `FsRo`, `FsDirP`–`FsDirP3`, `FsCoreP`–`FsCoreP5`,
`FsVolumeP`, `FsReach`, `FsKeep`; `PosixWp`, `PosixPath`, `PosixPath2`, `PosixInv`, `PosixStart`, `PosixCalls`–`7`,
`PosixReach`, `PosixSame`, `PosixKeep`, `PosixConcP`; `FsVolumeG` and `FsFormat` (volume and format for both APIs), `FseReach`; `FltP`, `FltCoreP`, `FltVolumeP`, `FltReach`, `FltFseReach` (device failures).

Specifications that do not mention the model of the code: `FsSpec.v`/`FsSpecN.v` (a file system as a map from
inode numbers to files and directories, well-formed trees), `FsMach.v` (working and committed state and what each
call may do to them, including power loss), `FseSpec.v` (the same for the FSE API), `FltSpec.v` and `FseFltSpec.v` (the same two with device failures), `PosixSpec.v` (paths), `AtoiSpec.v` (numerals), `CacheSpec.v` (storage without a cache),
`MetaSpec.v` (what a usable metaroot is), `NodeSpec.v` (structure layouts); flat bitmaps (`flat` in `PropImapE.v`),
layout parts (`part` in `PropGeom.v`).

The property theorems are in `Prop*.v`. Concrete instances that meet their hypotheses are in the same files or in
`Scenario*.v` (histories computed by `vm_compute` through the real model: format, mount, create, write,
transact, power loss, full volume, two tasks with overlapping calls, torn metaroots, ...).

### How the levels are connected

* `Bdev.v` takes the operating system as arbitrary outcomes of transfers: `C54_model_read`, `C54_model_write` prove that the disks of `OsDisk.v` behave so.
* `FsVolume.v` reads blocks through "what the cache returns": C09 proves that `buffer.c` provides exactly that.
* `FsImap.v` uses one flat bitmap: C08 (`C08_flat`, `C08_volume_find`, `C08_volume_set`) proves that both on-disk
  imaps implement it.
* `FsVolume.v` treats a metaroot block as valid or not: `C04_model_choose`, `C04_model_transact`, `C04_model_lose`,
  `C04_model_lose_ordered` prove that the byte-level code refines this.
* `FsState.cfg_ok` is what the geometry code guarantees: `C14_volume_model`.
* typed blocks stand for nodes with a valid signature and CRC: C40 (`C40_cache_model` connects `Node.v` and `Cache.v`).
* `Posix.v` calls `FsVolume.exec`; `preach` (POSIX histories) project to `reach` (volume histories).

## 2. Trusted base

* The Coq 8.16.1 kernel (including `vm_compute`).
* `Print Assumptions` of every theorem in MANIFEST.json: "Closed under the global context", except that vcheck's
  list over whole modules also shows the seven parameters `Coq.ssr.ssrunder.Under_rel.*` of the ssreflect plugin
  library (a functor argument of the standard library's `ssrunder`, loaded by `Require`; none of the theorems uses it).
  No axioms, no `Admitted`, no functors or module types of our own.
* The correspondence between the C text and the Gallina definitions, by reading. Every definition cites the lines.

### Not modelled

* os/* (except os/linux/services/osbdev.c), the host tools (except getopt.c, toolcmn.c), tests (except tests/util/math.c, atoi.c, rand.c, printf.c), the checker, the transaction-mask parsing of the command line, image builder.
* C undefined behaviour, stack depth, NULL-pointer argument checks (answered with RED_EINVAL before anything happens).
* REDASSERT / REDERROR have no effect in the model (asserts off); CRITICAL_ERROR / CRITICAL_ASSERT set the volume
  read-only and continue, as with asserts off.
* Time stamps (REDCONF_INODE_TIMESTAMPS = 0 at the file-system level; `Node.v` has the layout with and without).
* Failures of RedBDevClose on unmounting (except in `PropClose.v`), and of the device's power-up. All other device errors are modelled: retries
  (C32/C33), cache (C09), metaroots (C04), and in every function of the core including mount and format (C45, C46, `Flt*.v`).
* Inode block counts and sizes at the file-system level are unbounded `N`; `cfg_ok`, `C15_max_size` bound them.
* Big-endian hosts (both on-disk byte orders are modelled on a little-endian host).

### Premises in the statements, and why they are there

* C01–C03, C10, C16–C24, C34, C36, C37 are about `reach`: all histories of calls, evictions of dirty buffers and
  power losses, from arbitrary unformatted media. Premises of a step: names are C strings (`legal`); mount only
  when unmounted and unmount only when mounted, as posix.c does (`allowed`); the 64-bit sequence number is not
  exhausted (`room`); format when the stale in-memory counter `ulAlmostFreeBlocks` is 0 or the volume is mounted
  (necessary: `C36_unrestricted_refuted`); the step relation has no hypothesis about individual calls: in particular the undo of a rename that ran out of space halfway is proved never to fail (`core_rename`, FsCoreP5.v).
* Power loss: a flushed block keeps its contents; an unflushed block is arbitrary; a torn metaroot is *detected*.
  The last is proved at byte level for torn writes over an intact metaroot in any sector order (`C04_torn`,
  `C04_model_lose`) and for any number of torn writes if sectors are written in order (`C04_model_lose_ordered`);
  `C04_double_tear_refuted` is the remaining case (two successive power losses during the write of the same metaroot
  block, sectors out of order), where the code can accept a mix, so the restriction is necessary.
* C09: at most 255 references to one buffer (`C09_refcount_wraps` shows why) and the client rules of
  `CacheSpec.allowed`.
* C24: `MAXCOST <= RESERVED_BLOCKS <= allocable blocks`.
* C26: at most 2046 mounts between (2047 wraps).
* C45, C46: a volume is mounted, formatted or initialised again in the same power session only if the master block and the metaroots that
  the device returns give the same state as those on the media for good (`settled`; necessary: `C45_unsettled_refuted`).
* C38: red_init / red_uninit excluded, as documented.
* C47: RedFseInit / RedFseUninit only while no call is under way, as documented (necessary: `C47_uninit_refuted`).

## 3. Properties, theorems, method

| id | property | status | theorems | scope, restrictions |
|---|---|---|---|---|
| C01 | Power loss always returns the last committed state | proved | `C01_power_loss`, `C01_power_loss_during_call`, `refines` | every history of API calls, buffer evictions and power losses from unformatted media; power loss may tear or drop any unflushed block; a torn metaroot is assumed detected, which C04_model_lose / C04_model_lose_ordered prove at byte level (and C04_double_tear_refuted bounds); no hypothesis on individual calls (in particular the undo of a half-made rename is proved never to fail) |
| C02 | Committed blocks are never overwritten before the next transaction point | proved | `C02_committed_blocks` |  |
| C03 | Rollback restores exactly the last transaction point | proved | `C03_rollback` |  |
| C04 | Mount selects the newest valid metaroot and survives one torn metaroot | proved | `C04_mount`, `C04_no_metaroot`, `C04_one_metaroot`, `C04_read_error`, `C04_transact`, `C04_commit`, `C04_torn_sector`, `C04_torn`, `C04_corruption`, `C04_corruption_crc`, `C04_model_choose`, `C04_model_transact`, `C04_model_lose`, `C04_model_lose_ordered` | Theories/PropMeta.v, byte-level model of volume.c (Metaroot.v), both byte orders. The old contents of the block written to must be a valid metaroot: C04_double_tear_refuted shows that two successive torn writes of the same block can bring back a metaroot that was never committed. C04_swap_left_refuted: byte order left wrong in memory after a failed flush. |
| C05 | Block allocation returns only blocks that are free in both states, and never the same block twice | proved | `C05_alloc_sound`, `C05_no_double_alloc` | flat allocation map; C08 connects it to the two on-disk layouts |
| C06 | The free-block count is exact and allocation succeeds whenever it is nonzero | proved | `C06_counts_exact` | all histories of allocate/free/inode-bit/commit/rollback, including erroneous calls |
| C07 | Bitmap primitives address independent bits | proved | `C07_bitmap` |  |
| C08 | Inline and external imaps are indistinguishable | proved | `C08_flat`, `C08_committed_nodes`, `C08_blank`, `C08_volume_find`, `C08_volume_set` | Theories/PropImapE.v: byte-level models of imapinline.c and imapextern.c (ImapBytes.v) refine one flat bitmap, for every operation sequence with commits and rollbacks. A search needs a free block to exist, which RedImapAllocBlock checks; C08_full_map_hang_refuted shows that a search of a full map may not end. |
| C09 | The buffer cache is transparent | proved | `C09_transparent`, `C09_get_contents`, `C09_get_succeeds`, `C09_frame`, `C09_last_store`, `C09_flush` | Theories/PropCache.v: the model of buffer.c (Cache.v) refines storage without a cache (CacheSpec.v), for every buffer count, history and pattern of I/O failures. Little-endian host. C09_refcount_wraps shows why at most 255 acquisitions of one block are allowed. |
| C10 | A transaction point reaches the media before it is declared | proved | `C10_transact` |  |
| C11 | The three CRC implementations compute the same checksum | proved | `C11_crc_variants` | all buffers, initial values and alignments of the slice-by-8 prologue |
| C12 | Checksums compose and detect localized corruption | proved | `C12_crc_compose`, `C12_crc_burst` | stated for the bitwise variant; carries over to the others by C11 |
| C13 | Byte-swap helpers are exact byte reversals | proved | `C13_endian` |  |
| C14 | The on-disk layout never overlaps | proved | `C14_disjoint`, `C14_imap_bit`, `C14_toggle`, `C14_inside`, `C14_volume_model`, `C14_bounds`, `C14_on_media` | Theories/PropGeom.v, about the model of RedBDevOpen and RedVolInitGeometry (Geometry.v). The 32-bit no-wrap conditions are necessary: C14_inode_wrap_refuted, C14_node_wrap_refuted, C14_no_space_refuted, C14_toggle_refuted are accepted configurations that break the unrestricted claim. |
| C15 | Each logical file block has exactly one location in the inode tree | proved | `C15_seek_injective`, `C15_max_size`, `C15_slots_covered` |  |
| C16 | Reads return what was written | proved | `C16_history`, `C16_write`, `C16_create`, `C16_content`, `C16_size` |  |
| C17 | Truncation zero-fills and never resurrects data | proved | `C17_truncate`, `C17_extension` |  |
| C18 | No block is leaked or shared | proved | `C18_owner`, `C18_free_count`, `C18_all_deleted` | free count after deletion is stated at a transaction point: before it, blocks of the committed state are only almost free |
| C19 | A directory is a map from names to inodes | proved | `C19_history`, `C19_empty`, `C19_total`, `C19_unique`, `C19_exists` | creating an existing name fails with EEXIST, or with ENOSPC/ENFILE when the volume has no block or inode for the attempt (the code allocates the inode before it looks for the name), or EROFS |
| C20 | Directory enumeration is complete and duplicate free | proved | `C20_walk`, `C20_deterministic` | core-level directory positions; the stream object of posix.c keeps this position |
| C21 | Rename keeps the namespace a tree | proved | `C21_tree`, `C21_acyclic`, `C21_one_name`, `C21_root`, `C21_rename` |  |
| C22 | Link counts equal the number of names | proved | `C22_links`, `C22_exists` |  |
| C23 | A read-only volume never changes | proved | `C23_rejects`, `C23_stays`, `C23_ro_mount` |  |
| C24 | Running out of space is clean, and deleting is possible after a transaction point | proved | `C24_error`, `C24_delete`, `C24_shrink`, `C24_nospc`, `C24_short` | the reserve theorems need MAXCOST <= RESERVED_BLOCKS <= allocable blocks, which holds for the POSIX configurations with unlink |
| C25 | Paths select the right volume and file | proved | `C25_start`, `C25_mkdir`, `C25_unlink`, `C25_open`, `C25_create`, `C25_chdir`, `C25_terminator`, `C25_separators`, `api_same` | the starting point of every path is unique (longest whole-component prefix, or working directory), calls act on the entry reached component by component; strings with the same components are interchangeable. Repeated/trailing separators: for volume prefixes without separators. |
| C26 | File descriptors identify handle, volume and mount, and stale ones are rejected | proved | `C26_descriptor`, `C26_open`, `C26_generation`, `C26_rejected`, `C26_stale` | descriptors encode generation, volume and index; a descriptor of an earlier mount is dead unless the number of mounts since is a multiple of 2047 |
| C27 | Descriptor operations respect the access mode and keep the offset consistent | proved | `C27_modes`, `C27_accepts`, `C27_read`, `C27_write`, `C27_lseek`, `C27_ftruncate`, `C27_offset` |  |
| C28 | An open file or working directory is never deleted under its user | proved | `C28_handles`, `C28_cwd`, `C28_unlink`, `C28_rmdir`, `C28_rename` |  |
| C29 | Unmount and rollback never strand handles | proved | `C29_umount`, `C29_rollback`, `C29_unmounted` | media without I/O errors |
| C30 | Tasks are isolated: own errno, own working directory | proved | `C30_slot`, `C30_limit`, `C30_full`, `C30_registers`, `C30_errno`, `C30_cwd` |  |
| C31 | Memory and string primitives meet their C-library contracts | proved | `C31_memmove`, `C31_memcpy`, `C31_memset`, `C31_memcmp`, `C31_strlen`, `C31_strcmp`, `C31_strncmp`, `C31_strncpy`, `C31_namelen` | NULL-argument checks not modelled |
| C32 | Block I/O retries a bounded number of times | proved | `C32_read`, `C32_write`, `C32_flush` | Theories/PropBdev.v. For bBlockIoRetries <= 254; C32_endless_refuted shows that 255 retries forever. |
| C33 | Block I/O stays inside the volume | proved | `C33_read`, `C33_write`, `C33_reject`, `C33_sectors` | Theories/PropBdev.v, over a byte-addressed media with arbitrary failures. C33_range_check_refuted and C33_count_wrap_refuted show what the lower-level check does not ensure. |
| C34 | Automatic transaction points happen exactly when the mask asks for them | proved | `C34_commits`, `C34_no_commit`, `C34_volfull`, `C34_mask` |  |
| C35 | The working-directory path leads back to the working directory | proved | `C35_getcwd` | provided no other volume prefix matches the returned path better; C35_unrestricted_refuted shows that this can fail with prefixes that contain separators |
| C36 | Format produces a valid empty volume | proved | `C36_format` | for media whose in-memory count of almost free blocks is zero when the format starts |
| C37 | Inode slots: an inode is in exactly one committed copy and updates go to the other | proved | `C37_slots`, `C37_counter`, `C37_create` |  |
| C38 | API calls from concurrent tasks are serialised | proved | `C38_serial`, `C38_prefix`, `C38_mutex`, `C38_released` | POSIX-like API; any schedule at the granularity of single reads and writes of the globals; red_init/red_uninit excluded; the shared fallback errno (tasks without a slot) excluded |
| C39 | A volume mounts only with the configuration it was formatted with | proved | `C39_config`, `C39_incompatible`, `C39_order` | Theories/PropNode.v, byte-level model of the master block (Node.v). |
| C40 | Metadata nodes survive the disk in both byte orders, and anything else is rejected | proved | `C40_accept`, `C40_reject`, `C40_members`, `C40_written`, `C40_roundtrip`, `C40_type`, `C40_future`, `C40_order`, `C40_corruption`, `C40_corruption_crc`, `C40_cache_model` | Theories/PropNode.v, against the structure layouts of NodeSpec.v. |
| C41 | A writable volume stays writable | proved | `C41_step`, `C41_errors`, `C41_history`, `C41_mount`, `C41_rename` | media without I/O errors |
| C42 | FSE: transaction points, rollback and power loss | proved | `C42_refines`, `C42_power_loss`, `C42_power_loss_during_call` | Theories/PropFse.v: the model of fse.c (FseVol.v) refines the machine of FseSpec.v, for every history. Media without I/O errors. |
| C43 | FSE: the numbered files hold what was written | proved | `C43_files`, `C43_format`, `C43_call`, `C43_history`, `C43_errors`, `C43_mounted`, `C43_shrink` | Theories/PropFse.v. C43_shrink needs the configured reserve to cover one operation (MAXCOST), as C24. |
| C44 | FSE: volumes are independent, shutdown only when none is mounted | proved | `C44_volumes`, `C44_refused`, `C44_others`, `C44_uninit`, `C44_init` | Theories/PropFseApi.v: the API with several volumes (FseApi.v). Mutex and clock of the operating system do not fail; one task at a time. |
| C45 | A device failure is no worse than a power loss | proved | `C45_includes`, `C45_refines`, `C45_failed_call`, `C45_stays_readonly`, `C45_remount`, `C45_failed_read`, `C45_failed_format`, `C45_close_harmless` | Theories/PropFlt.v: a second, relational model of the core in which every input or output may fail (Flt*.v) refines the machine of FltSpec.v; it includes all histories of the model without failures (C45_includes). Remounting in the same power session needs the last metaroot write to be settled: C45_unsettled_refuted (ScenarioFlt.v) shows corruption otherwise. Failures of RedBDevClose on unmount are treated apart (PropClose.v): harmless if a transaction point is made on unmounting, otherwise C45_close_refuted (the volume stays mounted and writable without its dirty buffers, and the next transaction point destroys committed files); a failing REDASSERT in RedVolTransact ends the run. |
| C46 | FSE: a device failure is no worse than a power loss | proved | `C46_includes`, `C46_refines`, `C46_failed_call`, `C46_stays_readonly`, `C46_remount`, `C46_failed_read`, `C46_failed_format` | Theories/PropFltFse.v: FltFse.v (fse.c over the failing core of Flt*.v) refines the machine of FseFltSpec.v. Same restrictions as C45: remounting or formatting in the same power session needs the last writes of the master block and the metaroots to be settled. |
| C47 | FSE calls from concurrent tasks are serialised | proved | `C47_serial`, `C47_complete`, `C47_volumes`, `C47_mutex`, `C47_released` | Theories/PropFseConc.v over FseConc.v, all interleavings of the tasks' steps; what the body of a function does to the volume is one step (evictions and power losses in between). C47_uninit_refuted (ScenarioFseConc.v, with C47_shut): RedFseUninit concurrent with other calls is not serialisable, as FseEnter checks gfFseInited without the mutex. |
| C48 | 64-bit division, scaling and ratios without 64-bit divide instructions are exact | proved | `C48_divmod32`, `C48_divmod64`, `C48_muldiv`, `C48_ratio` | Theories/PropMath.v over Math.v. RedRatio: the two numbers printed, not the formatting. C48_no_spurious_overflow_refuted: RedMulDiv64 can answer UINT64_MAX although the exact value fits. |
| C49 | Numerals are converted to exactly the numbers they denote | proved | `C49_atoi`, `C49_hex64`, `C49_hex32`, `C49_decimal64`, `C49_decimal32`, `C49_prefixed`, `C49_none`, `C49_size` | Theories/PropAtoi.v over Atoi.v, numerals defined in AtoiSpec.v. int32_t overflow is modelled as wrapping (RedNtoUL relies on it above INT32_MAX; undefined in C). C49_hex32_max_refuted: FFFFFFFF is refused; C49_negative_hex_refuted: the sign of -0x10 is dropped. |
| C50 | The pseudo-random number generator has period 2^64 and returns every number equally often | proved | `C50_period`, `C50_all`, `C50_rand32`, `C50_global` | Theories/PropRand.v over Rand.v |
| C51 | Formatted output is complete or cut off at the end of the buffer, and never beyond it | proved | `C51_printf_safe`, `C51_printf` | Theories/PropPrintf.v over Printf.v; the text of a format is defined in PrintfSpec.v, with the padding the code does. LP64; buffers shorter than 2^31 characters; a missing argument or one of another kind than the conversion is undefined in C and in the model. C51_ansi_refuted: contrary to the documentation, the padding is not that of ANSI C (zeros before the sign of a negative number, '-' without effect on numbers, no padding of characters). |
| C52 | Command lines are parsed completely, in order, and operands are moved behind the options without reordering | proved | `C52_permute`, `C52_getopt`, `C52_getopt_long` | Theories/PropGetopt.v over Getopt.v, command lines defined in GetoptSpec.v. Command lines with long options in full or abbreviated to a unique beginning, and with undeclared or ambiguous options, unwanted and missing arguments; the model also has red_optopt and the modes selected by '+', '-' or W;. |
| C53 | The host tools operate on the volume that was named, and only after an explicit yes | proved | `C53_volume_argument`, `C53_confirm`, `C53_empty_refuted`, `C53_eof_refuted` | Theories/PropTool.v over Tool.v, numerals and answers defined in ToolSpec.v. strtoul and getchar are the C library's, modelled as in the standard. Two findings: the empty string is taken as volume 0; end of input hangs the prompt. |
| C54 | The RAM and file disks of the Linux port store exactly what was written | proved | `C54_history`, `C54_refused`, `C54_served`, `C54_wrap_refuted`, `C54_close_refuted`, `C54_model_read`, `C54_model_write` | Theories/PropOsDisk.v over OsDisk.v, PropOsDiskBdev.v (these disks behave as Bdev.v assumes of the operating system), disks specified in OsDiskSpec.v. Transfers below 4 GiB (necessary: C54_wrap_refuted). Volumes have different files; the files are not changed by others; power loss of the host is not modelled. Finding: after a failing close the disk can neither be used nor closed (C54_close_refuted). RedOsBDevGetGeometry is not modelled. |

Methods: byte-level laws by computation and induction (C07, C11–C13, C31); CRC over GF(2) linear maps (C11, C12); C09
forward simulation; C08 refinement of a flat map; C01–C03, C10, C16–C24, C34, C36, C37 by one structural invariant
(`VOL` in `FsVol*.v`: pointer map of all inodes, ownership of every allocated block, committed copies
untouched) preserved by each function, then forward simulation of `FsMach.v` by `FsReach.refines`; C25–C30, C35 by
weakest preconditions over `B` programs and an invariant of handles/tasks/volumes; C38 by a simulation relation between
interleavings and the sequence of `LAcq` events; C45 and C46 by relating each relational function to its deterministic twin (`fs_`,
`fltw`: either the same run, or an error with the volume read-only and only blocks free in the committed state touched).

## 4. Findings: unrestricted claims that are false of the code

Each `_refuted` example is a theorem about the model that exhibits the behaviour.

| where | what | theorem |
|---|---|---|
| volume.c RedVolInitGeometry | 32-bit products wrap for extreme inode counts / block counts; a volume with no allocable block is accepted; more imap nodes than toggle bits | `C14_inode_wrap_refuted`, `C14_node_wrap_refuted`, `C14_no_space_refuted`, `C14_toggle_refuted` |
| blockio.c retry loops | bBlockIoRetries = 255 never ends on a failing device (uint8_t index) | `C32_endless_refuted` |
| redmacs.h VOLUME_SECTOR_RANGE_IS_VALID | a start beyond the end is accepted (unsigned wrap); 2^29 blocks wrap to 0 sectors | `C33_range_check_refuted`, `C33_count_wrap_refuted` |
| imapinline.c/imapextern.c FindFree | skipping full bytes can jump over the start: no termination on a full map (the caller checks the count first) | `C08_full_map_hang_refuted` |
| format.c | format of an unmounted volume with stale ulAlmostFreeBlocks gives a wrong free count | `C36_unrestricted_refuted` |
| posix.c red_getcwd | the path may resolve to another volume if prefixes contain separators | `C35_unrestricted_refuted` |
| buffer.c bRefCount | wraps after 256 acquisitions | `C09_refcount_wraps` |
| volume.c metaroots | two torn writes of the same block with out-of-order sectors can bring back a state that never existed | `C04_double_tear_refuted` |
| volume.c RedVolTransact | with ENDIAN_SWAP, a failing RedIoFlush leaves the metaroot in memory byte-swapped | `C04_swap_left_refuted` |
| volume.c RedVolMount after a failed RedVolTransact | if the last flush failed, a remount in the same power session builds on a metaroot that is not durable; its blocks are reused and a power loss then leaves a corrupt volume | `C45_unsettled_refuted` |

Observed while reading, no theorem: core.c RedCoreVolUnmount leaves the volume mounted and writable with its dirty buffers lost if RedBDevClose fails; core.c CoreRename calls RedInodePut on a structure that may be uninitialised;
dir.c RedDirEntryDelete has a wrong REDASSERT; format.c's FSE inode loop does not stop on error; fBranched is stale
across unmount/mount; DirStream is not checked for its generation; the VOLFULL retry does not re-check fReadOnly;
RedCoreTransMaskGet's comment disagrees with the code on read-only volumes; an eviction failure of another volume's
block marks the current volume read-only; WriteAligned leaves stale buffers when RedIoWrite fails.

## 5. Tests against wrong programs

`seeded/LOG.jsonl`: one line per edit of a model definition in a scratch copy (which definition, the edit, the claim it breaks, the first failing proofs, the properties that are no longer proved, theorems tightened).

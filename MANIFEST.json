{
 "claims": [
  {
   "property": "C01",
   "status": "proved",
   "theorems": [
    "C01_power_loss",
    "C01_power_loss_during_call",
    "refines"
   ],
   "note": "every history of API calls, buffer evictions and power losses from unformatted media; power loss may tear or drop any unflushed block; a torn metaroot is assumed detected, which C04_model_lose / C04_model_lose_ordered prove at byte level (and C04_double_tear_refuted bounds); no hypothesis on individual calls (in particular the undo of a half-made rename is proved never to fail)"
  },
  {
   "property": "C02",
   "status": "proved",
   "theorems": [
    "C02_committed_blocks"
   ],
   "note": ""
  },
  {
   "property": "C03",
   "status": "proved",
   "theorems": [
    "C03_rollback"
   ],
   "note": ""
  },
  {
   "property": "C04",
   "status": "proved",
   "theorems": [
    "C04_mount",
    "C04_no_metaroot",
    "C04_one_metaroot",
    "C04_read_error",
    "C04_transact",
    "C04_commit",
    "C04_torn_sector",
    "C04_torn",
    "C04_corruption",
    "C04_corruption_crc",
    "C04_model_choose",
    "C04_model_transact",
    "C04_model_lose",
    "C04_model_lose_ordered"
   ],
   "note": "Theories/PropMeta.v, byte-level model of volume.c (Metaroot.v), both byte orders. The old contents of the block written to must be a valid metaroot: C04_double_tear_refuted shows that two successive torn writes of the same block can bring back a metaroot that was never committed. C04_swap_left_refuted: byte order left wrong in memory after a failed flush."
  },
  {
   "property": "C05",
   "status": "proved",
   "theorems": [
    "C05_alloc_sound",
    "C05_no_double_alloc"
   ],
   "note": "flat allocation map; C08 connects it to the two on-disk layouts"
  },
  {
   "property": "C06",
   "status": "proved",
   "theorems": [
    "C06_counts_exact"
   ],
   "note": "all histories of allocate/free/inode-bit/commit/rollback, including erroneous calls"
  },
  {
   "property": "C07",
   "status": "proved",
   "theorems": [
    "C07_bitmap"
   ],
   "note": ""
  },
  {
   "property": "C08",
   "status": "proved",
   "theorems": [
    "C08_flat",
    "C08_committed_nodes",
    "C08_blank",
    "C08_volume_find",
    "C08_volume_set"
   ],
   "note": "Theories/PropImapE.v: byte-level models of imapinline.c and imapextern.c (ImapBytes.v) refine one flat bitmap, for every operation sequence with commits and rollbacks. A search needs a free block to exist, which RedImapAllocBlock checks; C08_full_map_hang_refuted shows that a search of a full map may not end."
  },
  {
   "property": "C09",
   "status": "proved",
   "theorems": [
    "C09_transparent",
    "C09_get_contents",
    "C09_get_succeeds",
    "C09_frame",
    "C09_last_store",
    "C09_flush"
   ],
   "note": "Theories/PropCache.v: the model of buffer.c (Cache.v) refines storage without a cache (CacheSpec.v), for every buffer count, history and pattern of I/O failures. Little-endian host. C09_refcount_wraps shows why at most 255 acquisitions of one block are allowed."
  },
  {
   "property": "C10",
   "status": "proved",
   "theorems": [
    "C10_transact"
   ],
   "note": ""
  },
  {
   "property": "C11",
   "status": "proved",
   "theorems": [
    "C11_crc_variants"
   ],
   "note": "all buffers, initial values and alignments of the slice-by-8 prologue"
  },
  {
   "property": "C12",
   "status": "proved",
   "theorems": [
    "C12_crc_compose",
    "C12_crc_burst"
   ],
   "note": "stated for the bitwise variant; carries over to the others by C11"
  },
  {
   "property": "C13",
   "status": "proved",
   "theorems": [
    "C13_endian"
   ],
   "note": ""
  },
  {
   "property": "C14",
   "status": "proved",
   "theorems": [
    "C14_disjoint",
    "C14_imap_bit",
    "C14_toggle",
    "C14_inside",
    "C14_volume_model",
    "C14_bounds",
    "C14_on_media"
   ],
   "note": "Theories/PropGeom.v, about the model of RedBDevOpen and RedVolInitGeometry (Geometry.v). The 32-bit no-wrap conditions are necessary: C14_inode_wrap_refuted, C14_node_wrap_refuted, C14_no_space_refuted, C14_toggle_refuted are accepted configurations that break the unrestricted claim."
  },
  {
   "property": "C15",
   "status": "proved",
   "theorems": [
    "C15_seek_injective",
    "C15_max_size",
    "C15_slots_covered"
   ],
   "note": ""
  },
  {
   "property": "C16",
   "status": "proved",
   "theorems": [
    "C16_history",
    "C16_write",
    "C16_create",
    "C16_content",
    "C16_size"
   ],
   "note": ""
  },
  {
   "property": "C17",
   "status": "proved",
   "theorems": [
    "C17_truncate",
    "C17_extension"
   ],
   "note": ""
  },
  {
   "property": "C18",
   "status": "proved",
   "theorems": [
    "C18_owner",
    "C18_free_count",
    "C18_all_deleted"
   ],
   "note": "free count after deletion is stated at a transaction point: before it, blocks of the committed state are only almost free"
  },
  {
   "property": "C19",
   "status": "proved",
   "theorems": [
    "C19_history",
    "C19_empty",
    "C19_total",
    "C19_unique",
    "C19_exists"
   ],
   "note": "creating an existing name fails with EEXIST, or with ENOSPC/ENFILE when the volume has no block or inode for the attempt (the code allocates the inode before it looks for the name), or EROFS"
  },
  {
   "property": "C20",
   "status": "proved",
   "theorems": [
    "C20_walk",
    "C20_deterministic"
   ],
   "note": "core-level directory positions; the stream object of posix.c keeps this position"
  },
  {
   "property": "C21",
   "status": "proved",
   "theorems": [
    "C21_tree",
    "C21_acyclic",
    "C21_one_name",
    "C21_root",
    "C21_rename"
   ],
   "note": ""
  },
  {
   "property": "C22",
   "status": "proved",
   "theorems": [
    "C22_links",
    "C22_exists"
   ],
   "note": ""
  },
  {
   "property": "C23",
   "status": "proved",
   "theorems": [
    "C23_rejects",
    "C23_stays",
    "C23_ro_mount"
   ],
   "note": ""
  },
  {
   "property": "C24",
   "status": "proved",
   "theorems": [
    "C24_error",
    "C24_delete",
    "C24_shrink",
    "C24_nospc",
    "C24_short"
   ],
   "note": "the reserve theorems need MAXCOST <= RESERVED_BLOCKS <= allocable blocks, which holds for the POSIX configurations with unlink"
  },
  {
   "property": "C25",
   "status": "proved",
   "theorems": [
    "C25_start",
    "C25_mkdir",
    "C25_unlink",
    "C25_open",
    "C25_create",
    "C25_chdir",
    "C25_terminator",
    "C25_separators",
    "api_same"
   ],
   "note": "the starting point of every path is unique (longest whole-component prefix, or working directory), calls act on the entry reached component by component; strings with the same components are interchangeable. Repeated/trailing separators: for volume prefixes without separators."
  },
  {
   "property": "C26",
   "status": "proved",
   "theorems": [
    "C26_descriptor",
    "C26_open",
    "C26_generation",
    "C26_rejected",
    "C26_stale"
   ],
   "note": "descriptors encode generation, volume and index; a descriptor of an earlier mount is dead unless the number of mounts since is a multiple of 2047"
  },
  {
   "property": "C27",
   "status": "proved",
   "theorems": [
    "C27_modes",
    "C27_accepts",
    "C27_read",
    "C27_write",
    "C27_lseek",
    "C27_ftruncate",
    "C27_offset"
   ],
   "note": ""
  },
  {
   "property": "C28",
   "status": "proved",
   "theorems": [
    "C28_handles",
    "C28_cwd",
    "C28_unlink",
    "C28_rmdir",
    "C28_rename"
   ],
   "note": ""
  },
  {
   "property": "C29",
   "status": "proved",
   "theorems": [
    "C29_umount",
    "C29_rollback",
    "C29_unmounted"
   ],
   "note": "media without I/O errors"
  },
  {
   "property": "C30",
   "status": "proved",
   "theorems": [
    "C30_slot",
    "C30_limit",
    "C30_full",
    "C30_registers",
    "C30_errno",
    "C30_cwd"
   ],
   "note": ""
  },
  {
   "property": "C31",
   "status": "proved",
   "theorems": [
    "C31_memmove",
    "C31_memcpy",
    "C31_memset",
    "C31_memcmp",
    "C31_strlen",
    "C31_strcmp",
    "C31_strncmp",
    "C31_strncpy",
    "C31_namelen"
   ],
   "note": "NULL-argument checks not modelled"
  },
  {
   "property": "C32",
   "status": "proved",
   "theorems": [
    "C32_read",
    "C32_write",
    "C32_flush"
   ],
   "note": "Theories/PropBdev.v. For bBlockIoRetries <= 254; C32_endless_refuted shows that 255 retries forever."
  },
  {
   "property": "C33",
   "status": "proved",
   "theorems": [
    "C33_read",
    "C33_write",
    "C33_reject",
    "C33_sectors"
   ],
   "note": "Theories/PropBdev.v, over a byte-addressed media with arbitrary failures. C33_range_check_refuted and C33_count_wrap_refuted show what the lower-level check does not ensure."
  },
  {
   "property": "C34",
   "status": "proved",
   "theorems": [
    "C34_commits",
    "C34_no_commit",
    "C34_volfull",
    "C34_mask"
   ],
   "note": ""
  },
  {
   "property": "C35",
   "status": "proved",
   "theorems": [
    "C35_getcwd"
   ],
   "note": "provided no other volume prefix matches the returned path better; C35_unrestricted_refuted shows that this can fail with prefixes that contain separators"
  },
  {
   "property": "C36",
   "status": "proved",
   "theorems": [
    "C36_format"
   ],
   "note": "for media whose in-memory count of almost free blocks is zero when the format starts"
  },
  {
   "property": "C37",
   "status": "proved",
   "theorems": [
    "C37_slots",
    "C37_counter",
    "C37_create"
   ],
   "note": ""
  },
  {
   "property": "C38",
   "status": "proved",
   "theorems": [
    "C38_serial",
    "C38_prefix",
    "C38_mutex",
    "C38_released"
   ],
   "note": "POSIX-like API; any schedule at the granularity of single reads and writes of the globals; red_init/red_uninit excluded; the shared fallback errno (tasks without a slot) excluded"
  },
  {
   "property": "C39",
   "status": "proved",
   "theorems": [
    "C39_config",
    "C39_incompatible",
    "C39_order"
   ],
   "note": "Theories/PropNode.v, byte-level model of the master block (Node.v)."
  },
  {
   "property": "C40",
   "status": "proved",
   "theorems": [
    "C40_accept",
    "C40_reject",
    "C40_members",
    "C40_written",
    "C40_roundtrip",
    "C40_type",
    "C40_future",
    "C40_order",
    "C40_corruption",
    "C40_corruption_crc",
    "C40_cache_model"
   ],
   "note": "Theories/PropNode.v, against the structure layouts of NodeSpec.v."
  },
  {
   "property": "C41",
   "status": "proved",
   "theorems": [
    "C41_step",
    "C41_errors",
    "C41_history",
    "C41_mount",
    "C41_rename"
   ],
   "note": "media without I/O errors"
  },
  {
   "property": "C42",
   "status": "proved",
   "theorems": [
    "C42_refines",
    "C42_power_loss",
    "C42_power_loss_during_call"
   ],
   "note": "Theories/PropFse.v: the model of fse.c (FseVol.v) refines the machine of FseSpec.v, for every history. Media without I/O errors."
  },
  {
   "property": "C43",
   "status": "proved",
   "theorems": [
    "C43_files",
    "C43_format",
    "C43_call",
    "C43_history",
    "C43_errors",
    "C43_mounted",
    "C43_shrink"
   ],
   "note": "Theories/PropFse.v. C43_shrink needs the configured reserve to cover one operation (MAXCOST), as C24."
  },
  {
   "property": "C44",
   "status": "proved",
   "theorems": [
    "C44_volumes",
    "C44_refused",
    "C44_others",
    "C44_uninit",
    "C44_init"
   ],
   "note": "Theories/PropFseApi.v: the API with several volumes (FseApi.v). Mutex and clock of the operating system do not fail; one task at a time."
  },
  {
   "property": "C45",
   "status": "proved",
   "theorems": [
    "C45_includes",
    "C45_refines",
    "C45_failed_call",
    "C45_stays_readonly",
    "C45_remount",
    "C45_failed_read",
    "C45_failed_format",
    "C45_close_harmless"
   ],
   "note": "Theories/PropFlt.v: a second, relational model of the core in which every input or output may fail (Flt*.v) refines the machine of FltSpec.v; it includes all histories of the model without failures (C45_includes). Remounting in the same power session needs the last metaroot write to be settled: C45_unsettled_refuted (ScenarioFlt.v) shows corruption otherwise. Failures of RedBDevClose on unmount are treated apart (PropClose.v): harmless if a transaction point is made on unmounting, otherwise C45_close_refuted (the volume stays mounted and writable without its dirty buffers, and the next transaction point destroys committed files); a failing REDASSERT in RedVolTransact ends the run."
  },
  {
   "property": "C46",
   "status": "proved",
   "theorems": [
    "C46_includes",
    "C46_refines",
    "C46_failed_call",
    "C46_stays_readonly",
    "C46_remount",
    "C46_failed_read",
    "C46_failed_format"
   ],
   "note": "Theories/PropFltFse.v: FltFse.v (fse.c over the failing core of Flt*.v) refines the machine of FseFltSpec.v. Same restrictions as C45: remounting or formatting in the same power session needs the last writes of the master block and the metaroots to be settled."
  },
  {
   "property": "C47",
   "status": "proved",
   "theorems": [
    "C47_serial",
    "C47_complete",
    "C47_volumes",
    "C47_mutex",
    "C47_released"
   ],
   "note": "Theories/PropFseConc.v over FseConc.v, all interleavings of the tasks' steps; what the body of a function does to the volume is one step (evictions and power losses in between). C47_uninit_refuted (ScenarioFseConc.v, with C47_shut): RedFseUninit concurrent with other calls is not serialisable, as FseEnter checks gfFseInited without the mutex."
  },
  {
   "property": "C48",
   "status": "proved",
   "theorems": [
    "C48_divmod32",
    "C48_divmod64",
    "C48_muldiv",
    "C48_ratio"
   ],
   "note": "Theories/PropMath.v over Math.v. RedRatio: the two numbers printed, not the formatting. C48_no_spurious_overflow_refuted: RedMulDiv64 can answer UINT64_MAX although the exact value fits."
  },
  {
   "property": "C49",
   "status": "proved",
   "theorems": [
    "C49_atoi",
    "C49_hex64",
    "C49_hex32",
    "C49_decimal64",
    "C49_decimal32",
    "C49_prefixed",
    "C49_none",
    "C49_size"
   ],
   "note": "Theories/PropAtoi.v over Atoi.v, numerals defined in AtoiSpec.v. int32_t overflow is modelled as wrapping (RedNtoUL relies on it above INT32_MAX; undefined in C). C49_hex32_max_refuted: FFFFFFFF is refused; C49_negative_hex_refuted: the sign of -0x10 is dropped."
  },
  {
   "property": "C50",
   "status": "proved",
   "theorems": [
    "C50_period",
    "C50_all",
    "C50_rand32",
    "C50_global"
   ],
   "note": "Theories/PropRand.v over Rand.v"
  },
  {
   "property": "C51",
   "status": "proved",
   "theorems": [
    "C51_printf_safe",
    "C51_printf"
   ],
   "note": "Theories/PropPrintf.v over Printf.v; the text of a format is defined in PrintfSpec.v, with the padding the code does. LP64; buffers shorter than 2^31 characters; a missing argument or one of another kind than the conversion is undefined in C and in the model. C51_ansi_refuted: contrary to the documentation, the padding is not that of ANSI C (zeros before the sign of a negative number, '-' without effect on numbers, no padding of characters)."
  },
  {
   "property": "C52",
   "status": "proved",
   "theorems": [
    "C52_permute",
    "C52_getopt",
    "C52_getopt_long"
   ],
   "note": "Theories/PropGetopt.v over Getopt.v, command lines defined in GetoptSpec.v. Command lines with long options in full or abbreviated to a unique beginning, and with undeclared or ambiguous options, unwanted and missing arguments; the model also has red_optopt and the modes selected by '+', '-' or W;."
  },
  {
   "property": "C53",
   "status": "proved",
   "theorems": [
    "C53_volume_argument",
    "C53_confirm",
    "C53_empty_refuted",
    "C53_eof_refuted"
   ],
   "note": "Theories/PropTool.v over Tool.v, numerals and answers defined in ToolSpec.v. strtoul and getchar are the C library's, modelled as in the standard. Two findings: the empty string is taken as volume 0; end of input hangs the prompt."
  },
  {
   "property": "C54",
   "status": "proved",
   "theorems": [
    "C54_history",
    "C54_refused",
    "C54_served",
    "C54_wrap_refuted",
    "C54_close_refuted",
    "C54_model_read",
    "C54_model_write"
   ],
   "note": "Theories/PropOsDisk.v over OsDisk.v, PropOsDiskBdev.v (these disks behave as Bdev.v assumes of the operating system), disks specified in OsDiskSpec.v. Transfers below 4 GiB (necessary: C54_wrap_refuted). Volumes have different files; the files are not changed by others; power loss of the host is not modelled. Finding: after a failing close the disk can neither be used nor closed (C54_close_refuted). RedOsBDevGetGeometry is not modelled."
  }
 ]
}
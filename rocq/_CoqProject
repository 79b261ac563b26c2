-Q theories Verif
theories/PyVal.v
theories/PyValFacts.v
theories/RType.v
theories/Regex.v
theories/Registry.v
theories/FromDict.v
theories/FromDictFacts.v
theories/ToDict.v
theories/RoundTrip.v
theories/SpecTypes.v
theories/RegexFacts.v
theories/RegistryFacts.v
theories/Nullable.v
theories/NullableFacts.v
theories/TypesMore.v
theories/Equality.v
theories/Properties_Types.v
theories/Quote.v
theories/QuoteFacts.v
theories/Storage.v
theories/SpecStorage.v
theories/Server.v
theories/StorageFacts.v
theories/StorageMore.v
theories/ServerFacts.v
theories/CrashFacts.v
theories/Properties_Storage.v
theories/Url.v
theories/Settings.v
theories/Clients.v
theories/SpecUrl.v
theories/UrlFacts.v
theories/SettingsFacts.v
theories/SettingsMore.v
theories/ClientsFacts.v
theories/ClientsMore.v
theories/Properties_Url.v
theories/Dbapi.v
theories/SpecDb.v
theories/DbapiFacts.v
theories/DbapiMore.v
theories/DbReads.v
theories/BigQuery.v
theories/SpecBigQuery.v
theories/BigQueryFacts.v
theories/DbRanges.v
theories/Properties_Db.v
theories/Hive.v
theories/SpecHive.v
theories/HiveFacts.v
theories/HiveMore.v
theories/Documents.v
theories/Properties_Hive.v
theories/Avro.v
theories/SpecAvro.v
theories/AvroFacts.v
theories/AvroMore.v
theories/AvroProps.v
theories/Properties_Avro.v
theories/JsonSchema.v
theories/SpecJson.v
theories/JsonFacts.v
theories/JsonRead.v
theories/JsonRefs.v
theories/JsonUrn.v
theories/JsonWrite.v
theories/JsonProps.v
theories/JsonTrip.v
theories/Properties_Json.v
theories/Proto.v
theories/SpecProto.v
theories/ProtoWrite.v
theories/ProtoRead.v
theories/ProtoFrame.v
theories/ProtoShape.v
theories/ProtoTrip.v
theories/ProtoOrder.v
theories/ProtoMean.v
theories/ProtoRefs.v
theories/Properties_Proto.v
theories/SpecCompact.v
theories/Compact.v
theories/CompactDocs.v
theories/CompactRead.v
theories/CompactClean.v
theories/CompactMain.v
theories/CompactAlias.v
theories/CompactNames.v
theories/CompactWrite.v
theories/CompactAgain.v
theories/SpecTidy.v
theories/CleanTwice.v
theories/Properties_Compact.v
theories/Properties_Clean.v
theories/ServerTrip.v
theories/Properties_Posted.v
theories/SpecServer.v
theories/ServerSerial.v
theories/Properties_Server.v
theories/Commands.v
theories/SpecPrinted.v
theories/Printed.v
theories/Properties_Printed.v
theories/SpecCommands.v
theories/CommandsFacts.v
theories/Properties_Commands.v
theories/SpecAvroSchema.v
theories/AvroSchema.v
theories/Properties_AvroSchema.v
theories/Browse.v
theories/SpecBrowse.v
theories/BrowseRequest.v
theories/BrowseFacts.v
theories/Properties_Browse.v
theories/SpecInstances.v
theories/SpecJsonSchema.v
theories/JsonAccepts.v
theories/JsonValues.v
theories/JsonMeans.v
theories/JsonFits.v
theories/Properties_Instances.v
theories/Processes.v
theories/SpecProcesses.v
theories/ProcessFacts.v
theories/ProcessProps.v
theories/ProcessNames.v
theories/ProcessAlone.v
theories/Properties_Processes.v
theories/SpecRows.v
theories/RowFacts.v
theories/RowTypes.v
theories/RowMysql.v
theories/RowPostgres.v
theories/RowSnowflake.v
theories/RowSqlite.v
theories/SpecNested.v
theories/RowBigQuery.v
theories/RowHive.v
theories/Properties_Rows.v
theories/SpecDriver.v
theories/DriverFacts.v
theories/Properties_Driver.v
theories/SpecAvroData.v
theories/AvroData.v
theories/AvroDataBack.v
theories/AvroDataWritten.v
theories/Properties_AvroData.v
theories/SpecProtoData.v
theories/ProtoData.v
theories/ProtoDataReg.v
theories/ProtoDataBoth.v
theories/Properties_ProtoData.v
theories/SpecProtoWritten.v
theories/ProtoDataWritten.v
theories/Properties_ProtoWritten.v
theories/ProtoBack.v
theories/Properties_ProtoBack.v
theories/PrintedFormats.v
theories/Properties_Formats.v
theories/SpecConverted.v
theories/SpecDeepAvro.v
theories/SpecFlatProto.v
theories/Converted.v
theories/ConvertedAvro.v
theories/ConvertedDeep.v
theories/ConvertedProto.v
theories/Properties_Converted.v
theories/SpecTableJson.v
theories/TableJson.v
theories/Properties_TableJson.v
theories/SpecReprint.v
theories/JsonAgain.v
theories/JsonReprint.v
theories/Properties_Reprint.v
theories/Warehouse.v
theories/SpecWarehouse.v
theories/WarehouseFacts.v
theories/Properties_Warehouse.v
theories/HivePrinted.v
theories/SpecStats.v
theories/StatsPrinted.v
theories/Properties_Stats.v
theories/HiveFormats.v
theories/ArrayJson.v
theories/Cli.v
theories/CliFacts.v
theories/Properties_Cli.v
theories/EnumArrays.v
theories/SpecNestedJson.v
theories/NestedJson.v
theories/NestedRows.v
theories/Properties_NestedJson.v
theories/SpecHiveAvro.v
theories/HiveAvro.v
theories/Properties_TableAvro.v
